(* Theorems about the interpretation of command-line arguments (properties C83 - C86). *)
From Coq Require Import String Ascii List Arith Bool ZArith Lia.
From Verif Require Import CliPatternModel CliPatternSpec CliMatcherModel CliMatcherSpec CliMatcherProps CliSpecModel CliRecorderModel CliRecorderSpec CliSpecProofs
  CliParserModel CliParserSpec CliParserProps CliOptionSpec CliBuildModel CliBuildSpec CliBuildProofs3 CliBuildProps CliProcessorModel CliProcessorSpec CliProcessorProofs CliProcessorProofs2 CliProcessorProofs3 CliProcessorProofs4 ArrLib.
Import ListNotations.

Lemma reached_delegs m0 m acc : reached m0 m acc -> m_delegs m = m_delegs m0.
Proof.
  induction 1 as [|m acc s a m' R IH E|m acc s a m' R IH E]; [easy| |]; rewrite <- IH; revert E; unfold consume;
    destruct (a <? m_num_args m); try discriminate; destruct (get (nth_error (m_states m) (m_state m))) as [x| |]; cbn [bind]; try discriminate;
    destruct (map_find s (d_transitions x)); intros [= <-]; easy.
Qed.
Lemma make_delegs fuel st patterns num_args config m : make_matcher fuel st patterns num_args config = Ok m -> m_delegs m = map snd patterns.
Proof.
  unfold make_matcher. destruct patterns as [|p patterns]; [discriminate|].
  destruct (get (build_nfa _ _ _ _ _)) as [n| |]; cbn [bind]; try discriminate. destruct (build_dfa _ _ _ _) as [d| |]; cbn [bind]; try discriminate. now intros [= <-].
Qed.
Lemma rep_length st ps ts : Forall2 (rep_pattern st) ps ts -> length ps = length ts.
Proof. induction 1; cbn; congruence. Qed.

Definition ex_matcher (num_args : nat) : matcher := 
  match make_matcher 2000 ex_st (snd ex_built) num_args strict with Ok m => m | _ => Matcher [] 0 (Nfa [] []) [] [] 0 [] end.
Definition ex_run (args : list string) : option (poutcome * list invocation * list perror) :=
  match process 45 61 ex_s (map txt args) 1000 1 false (ex_matcher (length args)) with Some (r, v) => Some (r, v_invocations v, v_errors v) | None => None end.

(* The hypotheses of the theorems below are checked one by one. *)
Definition ex_tree_1 : tseq := SCons (ESym 0 (Psym s_keyword 0)) (SCons (ESym 1 (Psym s_value_slot 0)) SNil).
Definition ex_tree_2 : tseq := SCons (ESym 0 (Psym s_keyword 1)) (SCons (EOpt (SCons (ESym 1 (Psym s_proto_option 5)) SNil))
  (SCons (EOpt (SCons (ESym 2 (Psym s_proto_option 6)) SNil)) SNil)).
Definition ex_tree_3 : tseq := SCons (ESym 0 (Psym s_keyword 2)) SNil.
Lemma sym_first i y q : false = true <-> m_seq (SCons (ESym i y) q) [].
Proof. split; [discriminate|]. intros H. inversion H as [|e q' w1 w2 A B]; subst. inversion A; subst. discriminate. Qed.
Lemma ex_rep : Forall2 (rep_pattern ex_st) (map fst (snd ex_built)) [ex_tree_1; ex_tree_2; ex_tree_3].
Proof.
  assert (Y : forall e i y, e_type e = t_sym -> e_end_pos e = S i -> nth_error (ps_syms ex_st) (e_index e) = Some y -> rep_elem ex_st e (ESym i y)) by (intros; now apply rep_sym).
  repeat constructor; try (eexists; split; reflexivity).
  - eapply rep_seq_intro; [reflexivity| |apply sym_first]. eapply rep_cons; [reflexivity|now apply Y|]. eapply rep_cons; [reflexivity|now apply Y|constructor].
  - eapply rep_seq_intro; [reflexivity| |apply sym_first]. eapply rep_cons; [reflexivity|now apply Y|].
    eapply rep_cons; [reflexivity|apply rep_opt; [reflexivity|]|].
    + eapply rep_seq_intro; [reflexivity| |apply sym_first]. eapply rep_cons; [reflexivity|now apply Y|constructor].
    + eapply rep_cons; [reflexivity|apply rep_opt; [reflexivity|]|constructor].
      eapply rep_seq_intro; [reflexivity| |apply sym_first]. eapply rep_cons; [reflexivity|now apply Y|constructor].
  - eapply rep_seq_intro; [reflexivity| |apply sym_first]. eapply rep_cons; [reflexivity|now apply Y|constructor].
Qed.
Lemma mfind_bound {K} (eqb : K -> K -> bool) m k i n : forallb (fun x => snd x <? n) m = true -> mfind eqb k m = Some i -> i < n.
Proof.
  induction m as [|[k' j] m IH]; cbn; [discriminate|]. intros H. apply andb_prop in H as [H1 H2]. apply Nat.ltb_lt in H1.
  destruct (eqb k k'); [intros [= <-]; exact H1|now apply IH].
Qed.
Lemma nth_all {A} (P : A -> Prop) l : Forall P l -> forall i x, nth_error l i = Some x -> P x.
Proof. intros F i x E. apply nth_error_In in E. now apply (proj1 (Forall_forall P l) F). Qed.
Lemma ex_spec_ok : spec_ok ex_s /\ args_known ex_s /\ actions_fit ex_s.
Proof.
  split; [|split].
  - split; [|split; [|split]].
    + intros t i. unfold find_keyword. cbn [ex_s ex_built snd fst k_keyword_map k_keywords mfind].
      destruct (text_eqb t [97; 100; 100]) eqn:E1; [apply text_eqb_eq in E1; subst; split; [intros [= <-]; reflexivity|destruct i as [|[|[|[|i]]]]; cbn; easy]|].
      destruct (text_eqb t [108; 105; 115; 116]) eqn:E2; [apply text_eqb_eq in E2; subst; split; [intros [= <-]; reflexivity|destruct i as [|[|[|[|i]]]]; cbn; easy]|].
      destruct (text_eqb t [114; 117; 110]) eqn:E3; [apply text_eqb_eq in E3; subst; split; [intros [= <-]; reflexivity|destruct i as [|[|[|[|i]]]]; cbn; easy]|].
      split; [discriminate|]. destruct i as [|[|[|[|i]]]]; cbn; try discriminate; intros [= <-]; discriminate.
    + intros c i. now apply mfind_bound.
    + intros c i. now apply mfind_bound.
    + intros i p o E. revert o. pattern p. revert E. apply nth_all. repeat apply Forall_cons; try apply Forall_nil; cbn; intros o [= <-]; lia.
  - split.
    + intros d o. apply (nth_all (fun o => ar_require (o_arg o) = true -> ar_allow (o_arg o) = true)). repeat apply Forall_cons; try apply Forall_nil; easy.
    + intros i p d o Ei. revert p Ei d o. intros p Ei. pattern p. revert Ei. apply nth_all. repeat apply Forall_cons; try apply Forall_nil; cbn; try easy. intros d o _ [= <-] [= <-]. reflexivity.
  - intros d o. apply (nth_all (fun o => ar_require (o_arg o) = false -> ac_require (o_action o) = false)). repeat apply Forall_cons; try apply Forall_nil; easy.
Qed.

(* C83: there is one, and only one way in which the arguments can be read. *)
Theorem reading_exact : forall dash equal s args is_value i, spec_ok s -> args_known s ->
  exists gs, reads dash equal s is_value i args gs /\ forall gs', reads dash equal s is_value i args gs' -> gs' = gs.
Proof.
  intros dash equal s args b i Ok Ar. destruct (reads_total dash equal s Ok args b i) as (gs & R). exists gs. split; [exact R|].
  intros gs' R'. symmetry. eapply reads_unique; eassumption.
Qed.
Print Assumptions reading_exact.
(* -vofoo: a flag, and an option with the rest of the argument; -- makes the last argument a
   value *)
Example reading_ex : exists gs, reads 45 61 ex_s false 1 (map txt ["-vofoo"; "add"; "--"; "-x"]%string) gs /\
  flat_map asked (items gs) = [(0, None); (1, Some (txt "foo")); (4, None)] /\ flat_map matched (items gs) = [2; 4].
Proof.
  eexists [(1, _); (2, _); (3, _); (4, _)]. split; [|split].
  - eapply r_arg; [eapply (ra_short 45 61 ex_s false 1 _ 118 [111; 102; 111; 111]); [reflexivity|discriminate|] | |].
    + eapply (rs_flag 45 ex_s _ 1 _ [45] 118 [111; 102; 111; 111] (Known 0 false (Some (0, Optspec (0, 2) (Argspec false false) 0 (Action false false))))).
      * split; [reflexivity|]. eexists. split; [reflexivity|]. split; [easy|]. split; reflexivity.
      * intros d (o & [= <- <-] & E). discriminate.
      * discriminate.
      * eapply (rs_attached 45 ex_s _ 1 _ [45; 118] 111 102 [111; 111] (Known 1 false (Some (1, Optspec (2, 2) (Argspec true true) 0 (Action true true))))).
        -- split; [reflexivity|]. eexists. split; [reflexivity|]. split; [easy|]. split; reflexivity.
        -- eexists. split; reflexivity.
    + instantiate (1 := false). split; [discriminate|]. intros [E|(x & [<-|[<-|[]]] & E)]; [discriminate| |contradiction].
      destruct E as (d & o & [= <- <-] & E & _). discriminate.
    + eapply r_arg; [apply ra_plain; right; right; discriminate|instantiate (1 := false); split; [discriminate|intros [E|(x & [<-|[]] & E)]; easy]|].
      eapply r_arg; [eapply (ra_long 45 61 ex_s false 3 _ [] None); [reflexivity|easy|] | |].
      * eapply (rl_flag 45 ex_s _ 3 _ [] (Known 4 false (Some (4, Optspec (6, 1) (Argspec false false) 2 (Action false false))))).
        -- split; [reflexivity|]. eexists. split; [reflexivity|]. split; [easy|]. split; reflexivity.
        -- intros d (o & [= <- <-] & E). discriminate.
      * instantiate (1 := true). split; [intros _; right; eexists; split; [now left|]|reflexivity]. eexists _, _. split; [reflexivity|]. split; reflexivity.
      * eapply r_arg; [apply ra_plain; now left|instantiate (1 := true); split; [now left|reflexivity]|constructor].
  - reflexivity.
  - reflexivity.
Qed.

(* C84: processing ends, no assertion fails, and the outcome, the options to be performed, the
   errors, and the symbols that were matched are those that the specification says. *)
Theorem process_exact : forall dash equal s args st patterns ts config,
  patterns <> [] -> Forall2 (rep_pattern st) (map fst patterns) ts ->
  spec_ok s -> args_known s -> actions_fit s ->
  exists f, forall fuel m, f <= fuel -> make_matcher fuel st patterns (length args) config = Ok m ->
    forall offset failed gs, offset <= length args -> reads dash equal s false offset (skipn offset args) gs ->
    exists g r v f', comes_to s ts (map snd patterns) (length args) (at_start failed) gs g r /\
      (forall g' r', comes_to s ts (map snd patterns) (length args) (at_start failed) gs g' r' -> g' = g /\ r' = r) /\
      (forall fuel', f' <= fuel' -> process dash equal s args fuel' offset failed m = Some (r, v)) /\
      v_invocations v = g_options g /\ v_errors v = g_errors g /\ v_has_error v = g_failed g /\ reached m (v_matcher v) (g_symbols g).
Proof.
  intros dash equal s args st patterns ts config Hne H Ok Ar Ac.
  destruct (matcher_run_exact st patterns ts (length args) config Hne H) as (f & M). exists f. intros fuel m Hf E offset failed gs Ho R.
  assert (Hdel : forall m' acc, reached m m' acc -> m_delegs m' = map snd patterns) by (intros m' acc X; rewrite (reached_delegs _ _ _ X); eapply make_delegs; eassumption).
  assert (Hlen : length (map snd patterns) = length ts) by (rewrite <- (rep_length _ _ _ H), !map_length; reflexivity).
  destruct (reads_leads dash equal s args ts (map snd patterns) m Ar Ac Hdel Hlen (fun m' acc X => M fuel m Hf E m' acc X) false offset _ gs R eq_refl Ho
    0 false 0 None [] [] no_occurrence m (at_start failed)) as (g & r & v & C & (f' & P) & Q).
  { split; [constructor|easy]. }
  exists g, r, v, f'. split; [exact C|]. split; [intros g' r' C'; destruct (comes_to_unique s ts (map snd patterns) _ _ _ _ _ _ _ C' C); auto|]. split; [|exact Q].
  intros fuel' Hf'. unfold process. replace (offset <=? length args) with true by (symmetry; apply Nat.leb_le; lia). apply P. exact Hf'.
Qed.
Print Assumptions process_exact.
Example process_ex : snd ex_built <> [] /\ Forall2 (rep_pattern ex_st) (map fst (snd ex_built)) [ex_tree_1; ex_tree_2; ex_tree_3] /\
  spec_ok ex_s /\ args_known ex_s /\ actions_fit ex_s /\ make_matcher 2000 ex_st (snd ex_built) 5 strict = Ok (ex_matcher 5) /\
  ex_run ["prog"; "-vofoo"; "add"; "--"; "-x"]%string =
    Some (RInvoke 0, [(0, Occurrence 1 false 1 1 2 0); (1, Occurrence 1 true 1 2 3 3); (4, Occurrence 3 false 2 2 2 0)], []) /\
  ex_run ["prog"; "list"; "-aq"]%string = Some (RInvoke 1, [(5, Occurrence 2 false 1 1 2 0)], []) /\
  ex_run ["prog"; "-v"; "run"; "-z"]%string = Some (RDeleg 2 3, [(0, Occurrence 1 false 1 1 2 0)], []) /\
  ex_run ["prog"; "add"; "--help"; "-z"]%string = Some (RShorted 3, [], []) /\
  ex_run ["prog"; "add"; "foo"; "-vx"; "bar"; "--all=7"; "-o"]%string =
    Some (RFailed, [(0, Occurrence 3 false 1 1 2 0)],
      [ Perror 3 bad_option (unknown_in_compound (txt "-x") (txt "-vx", None));
        Perror 5 bad_option (no_arg_allowed (txt "7") (txt "--all") (txt "--all=7", None));
        Perror 6 bad_option (missing_arg (txt "-o")) ]).
Proof.
  split; [discriminate|]. split; [exact ex_rep|]. do 3 (split; [apply ex_spec_ok|]). split; [vm_compute; reflexivity|].
  repeat split; vm_compute; reflexivity.
Qed.

(* C85: what can be relied upon afterwards.  Errors are reported in order of the arguments, and
   each about an existing argument, or about the end; there is failure exactly if there was an
   error; a pattern is invoked only if there was none, everything on the command line is in
   order, and all the arguments that are not options or arguments of options were matched
   against it, each of them once, and in order. *)
Theorem outcome_exact : forall dash equal s args ts delegs failed offset gs g r, offset <= length args ->
  reads dash equal s false offset (skipn offset args) gs ->
  comes_to s ts delegs (length args) (at_start failed) gs g r ->
  in_order offset (length args) (g_errors g) /\
  (g_failed g = true <-> failed = true \/ g_errors g <> []) /\
  (r = RFailed -> g_failed g = true) /\
  (forall p, r = RInvoke p -> g_failed g = false /\ first_match ts p (g_word g) /\ nth_error delegs p <> Some true /\
    Forall proper (items gs) /\ g_options g = flat_map declared (items gs) /\ map snd (g_symbols g) = flat_map matched (items gs)) /\
  (forall p i, r = RDeleg p i -> offset <= i <= length args /\ delegates ts delegs g p /\
    exists gs1 gs2, gs = gs1 ++ gs2 /\ i = match gs2 with (i, _) :: _ => i | [] => length args end /\ g_options g = flat_map declared (items gs1)).
Proof.
  intros dash equal s args ts delegs failed offset gs g r Ho R C.
  assert (O : ordered (length args) offset gs) by (eapply reads_in_order; [exact R| |lia]; rewrite skipn_length; lia).
  destruct (comes_facts s ts delegs _ _ _ _ _ C offset O) as (l & A1 & A2 & A3 & A4 & A5 & A6); [easy|]. cbn in A1, A3, A5, A6.
  rewrite A1. split; [exact A2|]. split; [exact A3|]. split; [exact A4|]. split.
  - intros p Hr. destruct (A5 p Hr) as (B1 & B2 & B3 & B4 & B5 & B6). now rewrite B4, B6.
  - intros p i Hr. destruct (A6 p i Hr) as (gs1 & gs2 & B1 & B2 & B3 & B4). split; [|split; [exact B3|now exists gs1, gs2]].
    clear - O B1 B2 Ho. subst gs. revert O. generalize offset Ho. induction gs1 as [|[j l] gs1 IH]; cbn [app ordered]; intros lo Hlo O.
    + destruct gs2 as [|[j l] gs2]; cbn in O; subst; lia.
    + destruct O as (O1 & O2 & _ & O4). apply IH in O4; lia.
Qed.
Print Assumptions outcome_exact.
Example outcome_ex : exists gs g, reads 45 61 ex_s false 1 (skipn 1 (map txt ["prog"; "run"; "-z"]%string)) gs /\
  comes_to ex_s [ex_tree_1; ex_tree_2; ex_tree_3] [false; false; true] 3 (at_start false) gs g (RDeleg 2 2) /\ g_failed g = false.
Proof.
  assert (M : matches [ex_tree_1; ex_tree_2; ex_tree_3] 2 [Psym s_keyword 2]).
  { exists ex_tree_3, [(0, Psym s_keyword 2)]. split; [reflexivity|]. split; [|reflexivity]. apply (m_cons _ _ [_] []); constructor. }
  assert (F : forall p w, matches [ex_tree_1; ex_tree_2; ex_tree_3] p w -> p < 2 -> exists k u, w = Psym s_keyword k :: u /\ k < 2).
  { intros p w (t & u & E & X & Ew) L. destruct p as [|[|p]]; [| |lia]; injection E as <-; inversion X as [|e q w1 w2 A B]; subst; inversion A; subst; cbn; eexists _, _; (split; [reflexivity|lia]). }
  exists [(1, [IPlain (txt "run") 1 false]); (2, [IUnknown (txt "-z") 2 (txt "-z") false])]. eexists. split.
  - eapply r_arg; [apply ra_plain; right; right; discriminate|instantiate (1 := false); split; [discriminate|intros [E|(x & [<-|[]] & E)]; easy]|].
    eapply r_arg; [apply (ra_short 45 61 ex_s false 2 _ 122 []); [reflexivity|discriminate|apply rs_unknown; reflexivity]|instantiate (1 := false); split; [discriminate|intros [E|(x & [<-|[]] & E)]; easy]|constructor].
  - split; [eapply ct_go_on|].
    + intros p (_ & (X & _) & _). destruct X as (t & u & E & X & Ew). destruct u; [|discriminate]. destruct p as [|[|[|p]]]; [| | |now destruct p]; injection E as <-; inversion X as [|e q w1 w2 A B EX]; subst; inversion A; subst; discriminate.
    + eapply fa_more; [|constructor]. eapply f_plain with (y := Psym s_keyword 2).
      * left. split; [reflexivity|]. exists 2. do 2 (split; [vm_compute; reflexivity|]). exists 2, []. exact M.
      * apply put_fits; [reflexivity|]. exists 2, []. exact M.
    + apply ct_deleg with (gs := [(2, _)]). split; [reflexivity|]. split; [|reflexivity]. split; [exact M|]. intros p L X.
      destruct (F p _ X L) as (k & u & [= -> <-] & Lk). lia.
    + reflexivity.
Qed.

(* C86: the options are performed in order of their occurrence, each with the argument that it
   has on the command line, if any.  The complaints are about those arguments that are not
   accepted. *)
Theorem options_exact : forall dash equal s args accepts gs gs1 gs2 is_value offset v, args_known s -> actions_fit s ->
  reads dash equal s is_value offset (skipn offset args) gs -> gs = gs1 ++ gs2 -> v_invocations v = flat_map declared (items gs1) ->
  exists v', invoke_options s args accepts v (v_invocations v) = Some (flat_map asked (items gs1), v') /\
    v_errors v' = v_errors v ++ flat_map (complaint args accepts) (items gs1) /\
    (v_has_error v' = true <-> v_has_error v = true \/ exists i d o t, In (IOption i d o t) (items gs1) /\ accepts d t = false).
Proof.
  intros dash equal s args accepts gs gs1 gs2 is_value offset v Ar Ac R -> E.
  pose proof (reads_read dash equal s Ar args _ _ _ _ R eq_refl) as W. unfold items in W. rewrite flat_map_app in W. apply Forall_app in W as [W _].
  destruct (invoke_ok s args accepts Ac _ W v) as (v' & A & B & C & _). rewrite E. exists v'. split; [exact A|]. split; [exact B|]. rewrite C, orb_true_iff.
  assert (X : match flat_map (complaint args accepts) (items gs1) with [] => false | _ :: _ => true end = true <-> exists i d o t, In (IOption i d o t) (items gs1) /\ accepts d t = false).
  { destruct (flat_map (complaint args accepts) (items gs1)) as [|e l] eqn:El.
    - split; [discriminate|]. intros (i & d & o & t & Hi & Ha). assert (In (hd (Perror 0 bad_option too_few) (complaint args accepts (IOption i d o t))) []) as [].
      rewrite <- El. apply in_flat_map. exists (IOption i d o t). split; [exact Hi|]. cbn. rewrite Ha. now left.
    - split; [intros _|easy]. assert (In e (flat_map (complaint args accepts) (items gs1))) as I by (rewrite El; now left). apply in_flat_map in I as (x & Hx & He).
      destruct x as [a i vl|a i k o|i d o w|a i f c|a i f c|a i w f]; try contradiction. exists i, d, o, w. split; [exact Hx|]. cbn in He. destruct (accepts d w); [contradiction|easy]. }
  rewrite <- X. reflexivity.
Qed.
Print Assumptions options_exact.
Example options_ex : exists v, process 45 61 ex_s (map txt ["prog"; "-vofoo"; "--output"; "bar"; "list"]%string) 1000 1 false (ex_matcher 5) = Some (RInvoke 1, v) /\
  exists v', invoke_options ex_s (map txt ["prog"; "-vofoo"; "--output"; "bar"; "list"]%string) (fun _ t => negb (text_eqb t (txt "bar"))) v (v_invocations v) =
    Some ([(0, None); (1, Some (txt "foo")); (1, Some (txt "bar"))], v') /\
  v_errors v' = [Perror 2 bad_option_arg (bad_arg (txt "bar") (txt "--output") (txt "--output", Some (txt "bar")))].
Proof. eexists. split; [vm_compute; reflexivity|]. eexists. split; vm_compute; reflexivity. Qed.

(* One of the messages is never used: processor.hpp:363-366, where the offset has been set to
   the size of the argument (356) just before it is compared to it (358). *)
Theorem message_unused : forall dash equal s args st patterns ts config,
  patterns <> [] -> Forall2 (rep_pattern st) (map fst patterns) ts ->
  spec_ok s -> args_known s -> actions_fit s ->
  exists f, forall fuel m, f <= fuel -> make_matcher fuel st patterns (length args) config = Ok m ->
    forall offset failed, offset <= length args ->
    exists f', forall fuel' r v, f' <= fuel' -> process dash equal s args fuel' offset failed m = Some (r, v) ->
      forall i c x y, ~ In (Perror i c (unknown_option_in x y)) (v_errors v).
Proof.
  intros dash equal s args st patterns ts config Hne H Ok Ar Ac. destruct (process_exact dash equal s args st patterns ts config Hne H Ok Ar Ac) as (f & F).
  exists f. intros fuel m Hf E offset failed Ho. destruct (reading_exact dash equal s (skipn offset args) false offset Ok Ar) as (gs & R & _).
  destruct (F fuel m Hf E offset failed gs Ho R) as (g & r & v & f' & C & _ & P & _ & V & _). exists f'. intros fuel' r' v' Hf' E' i c x y.
  rewrite P in E' by exact Hf'. injection E' as _ <-. rewrite V. clear - C.
  assert (U : forall g g' vd, gives_up ts (map snd patterns) g g' vd -> g_errors g' = g_errors g) by (intros h h' vd; now inversion 1).
  assert (Pt : forall a0 y0 i0 g g' vd, put ts (map snd patterns) a0 y0 i0 g g' vd -> ~ In (Perror i c (unknown_option_in x y)) (g_errors g) -> ~ In (Perror i c (unknown_option_in x y)) (g_errors g')).
  { intros a0 y0 i0 h h' vd [X|X X1|h1 vd1 X X1 X2 X3|h1 vd1 X X1 X2 X3] N; auto; rewrite (U _ _ _ X3); cbn; rewrite in_app_iff; intros [Y|[Y|[]]]; auto; discriminate. }
  assert (Rf : forall a0 k i0 g g' vd, refers ts (map snd patterns) a0 k i0 g g' vd -> ~ In (Perror i c (unknown_option_in x y)) (g_errors g) -> ~ In (Perror i c (unknown_option_in x y)) (g_errors g')).
  { intros a0 k i0 h h' vd [X|h1 vd1 X X1] N; [exact N|]. eapply Pt; eassumption. }
  assert (Fo : forall g it g' vd, follows s ts (map snd patterns) g it g' vd -> ~ In (Perror i c (unknown_option_in x y)) (g_errors g) -> ~ In (Perror i c (unknown_option_in x y)) (g_errors g')).
  { intros h it h' vd [a i0 is_value z g1 v1 A B|a i0 k o g1 v1 D B|a i0 k o d z D B|a i0 k o d z g1 v1 D B A|i0 d o v1|a i0 f0 c0 g1 v1 B|a i0 f0 c0|a i0 z f0] N; auto.
    - eapply Pt; eassumption.
    - eapply Rf; eassumption.
    - eapply Rf; [eassumption|exact N].
    - rewrite (U _ _ _ B). cbn. rewrite in_app_iff. intros [Y|[Y|[]]]; auto. destruct c0; discriminate.
    - cbn. rewrite in_app_iff. intros [Y|[Y|[]]]; auto. destruct c0; discriminate.
    - cbn. rewrite in_app_iff. intros [Y|[Y|[]]]; auto. discriminate. }
  assert (Fa : forall g l g' vd, follows_all s ts (map snd patterns) g l g' vd -> ~ In (Perror i c (unknown_option_in x y)) (g_errors g) -> ~ In (Perror i c (unknown_option_in x y)) (g_errors g')).
  { induction 1 as [h|h it l h' vd A B|h it l h1 h' vd A B IH]; eauto. }
  assert (N0 : ~ In (Perror i c (unknown_option_in x y)) (g_errors (at_start failed))) by (intros []). revert C N0. generalize (at_start failed). intros g0 C.
  induction C as [h p gs D|h p El Ef M Nd|h p El Ef M Nd|h El|h El M|h j l gs g1 g' r ND A C IH|h j l gs g' ND A|h j l gs g' d ND A]; intros N; eauto.
  cbn. rewrite in_app_iff. intros [Y|[Y|[]]]; auto. discriminate.
Qed.
Print Assumptions message_unused.

(* A declaration is accepted although the action cannot do without an argument and the option
   takes none.  When the option occurs, an assertion fails: an action that requires an
   argument is refused only where an argument is allowed (spec.hpp:312-329), and
   OptionAssignAction::invoke_without_arg() is not supposed to be reached
   (option_action.hpp:181-184). *)
Definition misfit_options : list option_decl := [Option_decl (txt "-x") (txt "") 0 (Action true true)].
Theorem actions_fit_refuted : exists st s ps m v,
  build ascii_alnum ascii_narrow 300 misfit_options [] = POk (st, s, ps) /\ ~ actions_fit s /\
  make_matcher 2000 st ps 2 strict = Ok m /\
  process 45 61 s (map txt ["prog"; "-x"]%string) 1000 1 false m = Some (RInvoke 0, v) /\
  forall accepts, invoke_options s (map txt ["prog"; "-x"]%string) accepts v (v_invocations v) = None.
Proof.
  eexists _, _, _, _, _. split; [vm_compute; reflexivity|]. split.
  - intros H. specialize (H 0 _ eq_refl eq_refl). discriminate.
  - split; [vm_compute; reflexivity|]. split; [vm_compute; reflexivity|]. intros accepts. vm_compute. reflexivity.
Qed.
Print Assumptions actions_fit_refuted.

(* C89: from the declarations to the outcome, where options that require no argument have
   actions that can do without.  When the constructor succeeds, so does everything after it,
   except that the patterns may be ambiguous (C75). *)
Theorem command_line_exact : forall alnum narrow options patterns config dash equal args, locale_ok alnum narrow ->
  (forall d a, In d options -> arg_means alnum narrow (od_arg d) a -> ar_require a = false -> ac_require (od_action d) = false) ->
  exists f, forall fuel st s ps, f <= fuel -> build alnum narrow fuel options patterns = POk (st, s, ps) ->
  exists ms ts, options_mean alnum narrow options ms /\ Forall2 (pattern_mean alnum narrow options ms) (or_empty patterns) ts /\ registered options ms ts s /\
  exists f1, forall fuel1 m, f1 <= fuel1 -> make_matcher fuel1 st ps (length args) config = Ok m ->
  forall offset failed, offset <= length args ->
  exists gs g r v f2, reads dash equal s false offset (skipn offset args) gs /\
    comes_to s (map (elements (sym_of s)) ts) (map pd_deleg (or_empty patterns)) (length args) (at_start failed) gs g r /\
    (forall fuel2, f2 <= fuel2 -> process dash equal s args fuel2 offset failed m = Some (r, v)) /\
    v_errors v = g_errors g /\ v_has_error v = g_failed g /\
    forall p accepts, r = RInvoke p -> g_failed g = false /\ exists v', invoke_options s args accepts v (v_invocations v) = Some (flat_map asked (items gs), v').
Proof.
  intros alnum narrow options patterns config dash equal args Lok Fit. destruct (build_exact alnum narrow options patterns Lok) as (f & B). exists f.
  intros fuel st s ps Hf E. specialize (B fuel Hf). rewrite E in B. destruct B as (ms & ts & Om & Pm & Ok & Rg & Dl & Fu). exists ms, ts.
  split; [exact Om|]. split; [exact Pm|]. split; [exact Rg|].
  destruct (built_usable alnum narrow options ms (or_empty patterns) ts st s (map fst ps) Om Pm Ok Rg Fu) as (Rp & Ar & Ac).
  assert (Ac' : actions_fit s).
  { apply Ac. intros j d fs a Ed Em. apply Fit; [now apply nth_error_In in Ed|]. clear - Om Ed Em. revert j d fs a Ed Em.
    induction Om as [|ds ms d0 fs0 a0 Om IH F A N]; intros j d fs a Ed Em; [now destruct j|].
    assert (L : length ds = length ms) by (clear - Om; induction Om; [reflexivity|rewrite !app_length; cbn; lia]).
    destruct (Nat.lt_ge_cases j (length ms)) as [X|X]; [rewrite nth_error_app1 in Ed, Em by lia; eapply IH; eassumption|].
    rewrite nth_error_app2 in Ed, Em by lia. rewrite L in Ed. destruct (j - length ms) as [|[|k]]; try discriminate. injection Ed as <-. injection Em as <- <-. exact A. }
  assert (Ne : ps <> []). { intros ->. cbn in Dl. destruct patterns; discriminate. }
  destruct (process_exact dash equal s args st ps _ config Ne Rp Ok Ar Ac') as (f1 & F1). exists f1. intros fuel1 m Hf1 E1 offset failed Ho.
  destruct (reading_exact dash equal s (skipn offset args) false offset Ok Ar) as (gs & R & _).
  destruct (F1 fuel1 m Hf1 E1 offset failed gs Ho R) as (g & r & v & f2 & C & _ & P & V1 & V2 & V3 & _). exists gs, g, r, v, f2.
  rewrite Dl in C. do 5 (split; [assumption|]). intros p accepts Hr.
  destruct (outcome_exact dash equal s args _ _ failed offset gs g r Ho R C) as (_ & _ & _ & I & _). destruct (I p Hr) as (I1 & _ & _ & _ & I5 & _).
  split; [exact I1|]. destruct (options_exact dash equal s args accepts gs gs [] false offset v Ar Ac' R) as (v' & X & _); [now rewrite app_nil_r|congruence|now exists v'].
Qed.
Print Assumptions command_line_exact.
Example command_line_ex : locale_ok ascii_alnum ascii_narrow /\
  (forall d a, In d small_options -> arg_means ascii_alnum ascii_narrow (od_arg d) a -> ar_require a = false -> ac_require (od_action d) = false) /\
  exists fuel0, forall fuel, fuel0 <= fuel -> exists st s ps, build ascii_alnum ascii_narrow fuel small_options small_patterns = POk (st, s, ps).
Proof.
  split; [exact ascii_ok|]. split; [intros d a [<-|[<-|[]]] _ _; reflexivity|exact small_builds].
Qed.
