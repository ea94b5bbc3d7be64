(* Theorems about command-line processing as a whole (properties C93 and C94). *)
From Coq Require Import String Ascii List Arith Bool ZArith Lia.
From Verif Require Import CliPatternModel CliPatternSpec CliSpecModel CliMatcherModel CliMatcherSpec CliMatcherProps CliRecorderModel CliRecorderSpec CliRecorderProps CliAmbigProofs CliValueProofs
  CliParserModel CliParserSpec CliParserProps CliOptionSpec CliBuildModel CliBuildSpec CliBuildProofs3 CliBuildProps
  CliProcessorModel CliProcessorSpec CliProcessorProofs4 CliProcessorProps CliArgsModel CliArgsSpec CliArgsProofs3 CliArgsProps CliRunModel CliRunSpec CliRunProofs ArrLib.
Import ListNotations.

Lemma works_rep c qs : works c qs -> c_patterns c <> [] /\ Forall2 (rep_pattern (c_st c)) (map fst (c_patterns c)) qs.
Proof.
  intros (Ne & P & _). split.
  - intros E. rewrite E in P. cbn in P. now inversion P; subst.
  - clear Ne. revert P. generalize (map fst (c_patterns c)). intros ks. induction 1 as [|k q ks qs (F & f & t & -> & A) P IH]; constructor; [|exact IH].
    apply full_rep_pattern; [exact F|apply elements_numbered].
Qed.
Lemma Forall2_nth {A B} (R : A -> B -> Prop) l l' : Forall2 R l l' -> forall i b, nth_error l' i = Some b -> exists a, nth_error l i = Some a /\ R a b.
Proof. induction 1 as [|a b l l' H F IH]; intros [|i] x E; try discriminate; cbn in E; [injection E as <-; now exists a|]. now apply IH. Qed.
Lemma combine_args {A} (f : A -> nat) l (ns : list nat) (P : nat -> Prop) : Forall P ns -> forall p a, In (p, a) (combine (map f l) ns) -> P a.
Proof. intros F p a H. apply in_combine_r in H. rewrite Forall_forall in F. auto. Qed.
Lemma matched_bound dash equal s args vals offset gs : reads dash equal s vals offset (skipn offset args) gs -> offset <= length args ->
  Forall (fun a => a < length args) (flat_map matched (items gs)).
Proof.
  intros R Ho. apply reads_ordered in R. rewrite skipn_length in R. apply Forall_forall. intros a Ha. apply in_flat_map in Ha as (x & Hx & Hm).
  unfold items in Hx. apply in_flat_map in Hx as (gr & Hg & Hx). rewrite Forall_forall in R. destruct (R _ Hg) as (A & B & C). rewrite Forall_forall in C. specialize (C _ Hx).
  destruct x as [t i vl|t i k o|i d o w|t i f c|t i f c|t i w f]; cbn in Hm, C; try contradiction.
  - destruct Hm as [<-|[]]. lia.
  - destruct (kn_pattern k); [|contradiction]. destruct Hm as [<-|[]]. lia.
Qed.

(* C93: a processor, at any level of delegation, does what the specification says: it performs
   the options of all levels in order, calls the function with the arguments that it should
   be called with, delegates, or reports all the errors.  That there are arguments is ensured
   when they are taken over (set_args_exact in CliRootProps.v). *)
Theorem run_exact dash equal args c qs : args <> [] -> works c qs ->
  exists f, forall fuel, f <= fuel ->
  match make_matcher fuel (c_st c) (c_patterns c) (length args) (c_config c) with
  | Ok _ => forall ls offset failed ln, lineage dash equal args ls offset failed -> at_line ln ls offset ->
      exists gs g r taken l e f2, reads dash equal (c_spec c) false offset (skipn offset args) gs /\
        comes_to (c_spec c) qs (delegs c) (length args) (at_start failed) gs g r /\ takes gs g taken /\
        ends dash equal args c qs ls offset g taken r l e /\
        forall fuel2, f2 <= fuel2 -> run dash equal args fuel fuel2 c ln = Ok (l, e)
  | Err x => forall fuel2 ln, run dash equal args fuel fuel2 c ln = Err x
  | Bad => False
  end.
Proof.
  intros Na W. assert (Ha : 1 <= length args) by (destruct args; [easy|cbn; lia]). destruct (works_rep c qs W) as (Ne & Rep). pose proof W as (Nq & Pw & Ok & Ar & Ac & Len & Aw).
  destruct (matcher_construction_exact (c_st c) (c_patterns c) qs (length args) (c_config c) Ne Rep) as (f0 & F0).
  destruct (process_exact dash equal (c_spec c) args (c_st c) (c_patterns c) qs (c_config c) Ne Rep Ok Ar Ac) as (f1 & F1).
  destruct (matcher_backtrack_exact (c_st c) (c_patterns c) qs (length args) (c_config c) Ne Rep) as (f2 & F2).
  exists (f0 + f1 + f2). intros fuel Hf. specialize (F0 fuel ltac:(lia)). specialize (F1 fuel). specialize (F2 fuel).
  destruct (make_matcher fuel (c_st c) (c_patterns c) (length args) (c_config c)) as [m|x|] eqn:Em; [|intros fuel2 ln; unfold run; rewrite Em; reflexivity|contradiction].
  intros ls offset failed ln L (Al & Ao). specialize (F1 m ltac:(lia) eq_refl). specialize (F2 m ltac:(lia) eq_refl). clear F0.
  destruct (lineage_facts dash equal args Ha ls offset failed L) as (Lo & Lf & Lk & Le).
  destruct (reading_exact dash equal (c_spec c) (skipn offset args) false offset Ok Ar) as (gs & R & _).
  destruct (F1 offset failed gs (proj2 Lo) R) as (g & r & v & f3 & C & _ & P & V1 & V2 & V3 & V4).
  destruct (outcome_exact _ _ _ _ _ _ _ _ _ _ _ (proj2 Lo) R C) as (_ & O2 & O3 & O4 & O5).
  destruct (comes_opts _ _ _ _ _ _ _ _ C) as (taken & rest & T1 & T2). cbn in T2.
  assert (T : takes gs g taken) by (split; [now exists rest|exact T2]).
  assert (He : match l_parents ln with [] => false | a :: _ => a_has_error a end = failed).
  { destruct Al as [|a lv parents ls' H F]; [now symmetry|]. destruct H as (_ & _ & _ & ->). now symmetry. }
  set (now := Level c taken g). assert (Ok' : level_ok args now) by (split; [exact Ac|split; [eapply taken_read; eassumption|exact T2]]).
  destruct (invoke_all_exact args (l_parents ln) ls Al Lk now v Ok') as (v' & I1 & I2 & I3 & I4).
  assert (Start : forall fuel2, f3 <= fuel2 -> process dash equal (c_spec c) args fuel2 (l_offset ln) failed m = Some (r, v)) by (rewrite Ao; exact P).
  assert (Fnd : all_found (now :: ls) = all_found ls ++ g_errors g) by (unfold all_found; now rewrite flat_map_rev_cons).
  assert (Fl : g_failed g = true <-> all_found (now :: ls) <> []).
  { rewrite O2, Lf, Fnd. destruct (all_found ls) as [|e0 l0]; cbn; [tauto|]. split; [easy|now left]. }
  destruct r as [d|p|p i|].
  - (* a short-circuit option *)
    exists gs, g, (RShorted d), taken, [], (EShorted d), f3. do 3 (split; [assumption|]). split; [constructor|]. intros fuel2 Hf2. unfold run. rewrite Em. cbn [bind]. rewrite He, (Start _ Hf2). reflexivity.
  - (* a pattern *)
    destruct (O4 p eq_refl) as (B1 & B2 & B3 & B4 & B5 & B6). assert (Fn : all_found (now :: ls) = []).
    { destruct (all_found (now :: ls)); [reflexivity|]. destruct Fl as [_ Fl]. rewrite Fl in B1 by easy. discriminate. }
    assert (E1 : v_errors v = [] /\ all_found ls = []). { rewrite Fnd in Fn. apply app_eq_nil in Fn as [X Y]. now rewrite V2. } destruct E1 as (E1 & E2).
    destruct B2 as (Mt & Fst). pose proof Mt as (q & mw0 & Eq & _). destruct (F2 (v_matcher v) (g_symbols g) V4) as [Bt _]. destruct (Bt p q (conj Mt Fst) Eq) as (mw & M1 & M2 & M3 & M4).
    set (w := combine (map fst mw) (map snd (g_symbols g))) in *.
    assert (Mo : match_of q g w) by (exists mw; now split).
    destruct (Forall2_nth _ _ _ Pw p q Eq) as (k & Ek & FS & f & t & Et & Am). rewrite nth_error_map in Ek. destruct (nth_error (c_patterns c) p) as [[k' dl]|] eqn:Ep; [|discriminate]. cbn in Ek. injection Ek as ->.
    assert (Dl : dl = false). { unfold delegs in B3. rewrite nth_error_map, Ep in B3. cbn in B3. destruct dl; [now elim B3|reflexivity]. } subst dl.
    assert (Lw : length (map fst mw) = length (map snd (g_symbols g))).
    { rewrite !map_length. rewrite <- (map_length fst (g_symbols g)). rewrite <- M3. now rewrite map_length. }
    assert (Ew : map fst w = map fst mw).
    { unfold w. clear - Lw. revert Lw. generalize (map fst mw) (map snd (g_symbols g)). induction l as [|x l IH]; intros [|y l'] E; try discriminate; [reflexivity|]. cbn. f_equal. apply IH. now injection E. }
    destruct (seq_val q mw w M2 (eq_sym Ew)) as (vl & V).
    destruct (nth_error (c_actions c) p) as [[act attr]|] eqn:Ea.
    2:{ apply nth_error_None in Ea. rewrite Len in Ea. assert (p < length qs) by (apply nth_error_Some; congruence). lia. }
    assert (Hv : v_has_error v' = any (all_complaints args (now :: ls))) by (rewrite I3, V3, B1; reflexivity).
    assert (Bk : backtrack (v_matcher v') = CliMatcherModel.Ok (w ++ [(length (seq_syms q), length args)])) by (rewrite I4; exact M1).
    assert (Step : forall fuel2, f3 <= fuel2 -> run dash equal args fuel fuel2 c ln =
      bind (get (generate_descs (c_st c) fuel2 k (w ++ [(length (seq_syms q), length args)]))) (fun descs =>
      bind (get (invoke_action args c act (any (all_complaints args (now :: ls))) descs)) (fun '(call, errors) =>
        match call with
        | Some values => CliMatcherModel.Ok (all_asked (now :: ls), ECalled p values (negb (Z.land attr completing =? 0)%Z))
        | None => CliMatcherModel.Ok (all_asked (now :: ls), EErrors (report_errors ln (all_complaints args (now :: ls) ++ errors)))
        end))).
    { intros fuel2 Hf2. unfold run. rewrite Em. cbn [bind]. rewrite He, (Start _ Hf2). cbn [get bind]. rewrite V1. change (g_options g) with (g_options (lv_progress now)).
      change c with (lv_command now) at 1. rewrite I1. cbn [get bind]. rewrite Ep, Ea. cbn [get bind]. rewrite Bk. cbn [bind]. rewrite Hv, I2, E1. reflexivity. }
    assert (Rp : forall own, report_errors ln own = stable_sort own). { intros own. unfold report_errors. now rewrite (gather_exact _ ls own Al), E2. }
    assert (Ls : forall l, l <> [] -> stable_sort l <> []). { intros l Hl Hs. apply Hl. eapply sorted_nil; [apply sort_sorted|exact Hs]. }
    pose proof (Aw p q false k act attr Eq Ep Ea) as Wk. destruct act as [|ts|]; cbn in Wk; [|destruct Wk as [_ Wk]|discriminate].
    + (* no action *)
      rewrite Et in FS, V, Am. destruct (descriptions_exact (c_st c) k f t w vl (length args) FS Am V) as (ds & _ & f4 & _ & _ & _ & G). rewrite <- Et in G.
      destruct (all_complaints args (now :: ls)) as [|e0 l0] eqn:Ec.
      * exists gs, g, (RInvoke p), taken, (all_asked (now :: ls)), (ECalled p [] (negb (Z.land attr completing =? 0)%Z)), (f3 + f4). do 3 (split; [assumption|]). split.
        -- eapply en_null; [exact Fn|exact Ec|exact Ea|apply complete_iff].
        -- intros fuel2 Hf2. rewrite Step by lia. rewrite G by lia. reflexivity.
      * exists gs, g, (RInvoke p), taken, (all_asked (now :: ls)), (EErrors (stable_sort (e0 :: l0))), (f3 + f4). do 3 (split; [assumption|]). split.
        -- eapply en_rejected_null; [exact Fn|exact Ea|fold now; rewrite Ec; apply sort_sorted|now apply Ls].
        -- intros fuel2 Hf2. rewrite Step by lia. rewrite G by lia. cbn [get bind invoke_action any negb]. rewrite Rp, app_nil_r. reflexivity.
    + (* a function *)
      assert (Bd : forall pp a, In (pp, a) w -> a < length args).
      { unfold w. rewrite B6. apply combine_args. eapply matched_bound; [exact R|apply Lo]. }
      rewrite Et in FS, V, Am, Wk. destruct (invoke_exact (c_st c) args (c_parses c) ts k f t w vl (length args) (any (all_complaints args (now :: ls))) FS Am V Bd Wk) as (ds & y & rj & f4 & G & Fa & _ & Iv).
      rewrite <- Et in G, Fa, V. assert (Iv' : invoke_action args c (PFunc ts) (any (all_complaints args (now :: ls))) ds =
        Some (match rj, all_complaints args (now :: ls) with [], [] => Some y | _, _ => None end, map pattern_arg_error rj)).
      { cbn [invoke_action]. rewrite Iv. cbn [obind]. destruct rj, (all_complaints args (now :: ls)); reflexivity. }
      destruct (match rj, all_complaints args (now :: ls) with [], [] => true | _, _ => false end) eqn:Cl.
      * destruct rj as [|e0 rj]; [|discriminate]. destruct (all_complaints args (now :: ls)) as [|e0 l0] eqn:Ec; [|discriminate].
        exists gs, g, (RInvoke p), taken, (all_asked (now :: ls)), (ECalled p y (negb (Z.land attr completing =? 0)%Z)), (f3 + f4). do 3 (split; [assumption|]). split.
        -- eapply en_called; [exact Fn|exact Ec|exact Eq|exact Ea|exact Mo|exact V|exact Fa|apply complete_iff].
        -- intros fuel2 Hf2. rewrite Step by lia. rewrite G by lia. cbn [get bind]. rewrite Iv'. reflexivity.
      * exists gs, g, (RInvoke p), taken, (all_asked (now :: ls)), (EErrors (stable_sort (all_complaints args (now :: ls) ++ map pattern_arg_error rj))), (f3 + f4). do 3 (split; [assumption|]). split.
        -- eapply en_rejected; [exact Fn|exact Eq|exact Ea|exact Mo|exact V|exact Fa|apply sort_sorted|]. apply Ls. fold now. intros X. apply app_eq_nil in X as [X Y]. rewrite X in Cl. destruct rj; discriminate.
        -- intros fuel2 Hf2. rewrite Step by lia. rewrite G by lia. cbn [get bind]. rewrite Iv'. cbn [get bind]. rewrite Rp.
           destruct rj, (all_complaints args (now :: ls)); try discriminate; reflexivity.
  - (* delegation *)
    destruct (O5 p i eq_refl) as (B1 & (_ & B2 & B3) & _). destruct B2 as (Mt & _). pose proof Mt as (q & mw0 & Eq & _).
    destruct (nth_error (c_actions c) p) as [[act attr]|] eqn:Ea.
    2:{ apply nth_error_None in Ea. rewrite Len in Ea. assert (p < length qs) by (apply nth_error_Some; congruence). lia. }
    unfold delegs in B3. rewrite nth_error_map in B3. destruct (nth_error (c_patterns c) p) as [[k dl]|] eqn:Ep; [|discriminate]. cbn in B3. injection B3 as ->.
    pose proof (Aw p q true k act attr Eq Ep Ea) as Wk. destruct act as [|ts|]; cbn in Wk; [discriminate|destruct Wk; discriminate|].
    set (ln' := Line (Ancestor c (v_invocations v) (v_errors v) (v_has_error v) :: l_parents ln) i).
    exists gs, g, (RDeleg p i), taken, [], (EDelegated p ln'), f3. do 3 (split; [assumption|]). split.
    + apply en_deleg.
      * split; [|reflexivity]. constructor; [|exact Al]. repeat split; assumption.
      * eapply ln_deleg; eassumption.
      * exact B1.
      * now exists attr.
    + intros fuel2 Hf2. unfold run. rewrite Em. cbn [bind]. rewrite He, (Start _ Hf2). cbn [get bind]. rewrite Ea. cbn [get bind]. unfold deleg_line. rewrite Ao.
      replace (offset <=? i) with true by (symmetry; apply Nat.leb_le; lia). reflexivity.
  - (* errors *)
    specialize (O3 eq_refl). exists gs, g, RFailed, taken, (all_asked (now :: ls)), (EErrors (stable_sort (all_found (now :: ls) ++ all_complaints args (now :: ls)))), f3.
    do 3 (split; [assumption|]). split.
    + apply en_failed; [apply sort_sorted|]. fold now. intros X. pose proof (sorted_nil _ _ (sort_sorted _) X) as Y. apply app_eq_nil in Y as [Y _]. now apply Fl.
    + intros fuel2 Hf2. unfold run. rewrite Em. cbn [bind]. rewrite He, (Start _ Hf2). cbn [get bind]. rewrite V1. change (g_options g) with (g_options (lv_progress now)).
      change c with (lv_command now) at 1. rewrite I1. cbn [get bind]. rewrite I3, V3, O3. cbn [orb]. unfold report_errors. rewrite (gather_exact _ ls _ Al), I2, V2, Fnd, app_assoc. reflexivity.
Qed.
Print Assumptions run_exact.

(* ---- the constructor ---- *)

Definition entry_action (e : entry) : paction * Z := (en_action e, en_attr e).
Lemma or_empty_actions entries i d : nth_error (or_empty (map entry_decl entries)) i = Some d ->
  exists act, nth_error (match entries with [] => [(PNull, 0%Z)] | _ => map entry_action entries end) i = Some (act, pd_attr d) /\
    pd_deleg d = can_deleg act /\ (forall ts, act = PFunc ts -> d = func_decl (pd_pattern d) (pd_attr d) ts).
Proof.
  destruct entries as [|e0 entries]; [destruct i as [|i]; [intros [= <-]; exists PNull; now split|now destruct i]|].
  cbn [or_empty map]. intros E. change (entry_decl e0 :: map entry_decl entries) with (map entry_decl (e0 :: entries)) in E. change (entry_action e0 :: map entry_action entries) with (map entry_action (e0 :: entries)).
  rewrite nth_error_map in E |- *. destruct (nth_error (e0 :: entries) i) as [e|]; [|discriminate]. cbn in E |- *. injection E as <-. exists (en_action e). split; [reflexivity|]. split; [reflexivity|].
  intros ts Ea. unfold entry_decl, func_decl. rewrite Ea. reflexivity.
Qed.

(* C94: a processor that was constructed can be relied upon, provided that no action of an
   option requires an argument unless the option does (actions_fit_refuted in
   CliBuildProps.v), and that std::size_t does not stand for alternatives
   (size_of_alternatives_refuted in CliArgsProps.v). *)
Theorem construct_exact alnum narrow options entries config accepts parses : locale_ok alnum narrow ->
  (forall d a, In d options -> arg_means alnum narrow (od_arg d) a -> ar_require a = false -> ac_require (od_action d) = false) ->
  exists fuel0, forall fuel c, fuel0 <= fuel -> construct alnum narrow fuel options entries config accepts parses = POk c ->
  exists ms trees, options_mean alnum narrow options ms /\ Forall2 (pattern_mean alnum narrow options ms) (or_empty (map entry_decl entries)) trees /\
    registered options ms trees (c_spec c) /\
    (c_actions c = if entries then [(PNull, 0%Z)] else map (fun e => (en_action e, en_attr e)) entries) /\
    c_config c = config /\ c_accepts c = accepts /\ c_parses c = parses /\ delegs c = map (fun a => can_deleg (fst a)) (c_actions c) /\
    ((forall p ts attr t, nth_error (c_actions c) p = Some (PFunc ts, attr) -> nth_error trees p = Some t -> all_free (elements (sym_of (c_spec c)) t)) ->
     works c (map (elements (sym_of (c_spec c))) trees)).
Proof.
  intros Lok Fit. destruct (build_exact alnum narrow options (map entry_decl entries) Lok) as (f & B). exists f. intros fuel c Hf E. specialize (B fuel Hf). unfold construct in E.
  destruct (build alnum narrow fuel options (map entry_decl entries)) as [[[st s] ps]|cc mm|] eqn:Eb; cbn [pbind] in E; try discriminate. injection E as <-. destruct B as (ms & trees & Om & Pm & Ok & Rg & Dl & Fu).
  exists ms, trees. cbn [c_spec c_actions]. split; [exact Om|]. split; [exact Pm|]. split; [exact Rg|].
  split; [reflexivity|]. split; [reflexivity|]. split; [reflexivity|]. split; [reflexivity|].
  change (fun e : entry => (en_action e, en_attr e)) with entry_action.
  set (acts := match entries with [] => _ | _ => _ end).
  assert (La : length acts = length (or_empty (map entry_decl entries))) by (subst acts; destruct entries; cbn; [reflexivity|now rewrite !map_length]).
  assert (Lt : length trees = length (or_empty (map entry_decl entries))) by (symmetry; clear - Pm; induction Pm; cbn; congruence).
  split.
  { unfold delegs. cbn [c_patterns]. rewrite Dl. subst acts. destruct entries as [|e0 entries]; [reflexivity|]. cbn. f_equal. rewrite !map_map. reflexivity. }
  intros Free. destruct (built_usable alnum narrow options ms (or_empty (map entry_decl entries)) trees st s (map fst ps) Om Pm Ok Rg Fu) as (Rp & Ar & Ac).
  split; [intros E; apply map_eq_nil in E; subst trees; cbn in Lt; now destruct entries|].
  split. { cbn [c_st c_patterns]. clear - Fu Pm. revert Fu. generalize (map fst ps). intros ks. revert trees Pm. generalize (or_empty (map entry_decl entries)). intros ds trees Pm. revert ks.
    induction Pm as [|d t ds trees M Pm IH]; intros ks Fu; inversion Fu as [|k q ks' qs F Fu']; subst; constructor; [|now apply IH].
    split; [exact F|]. exists (sym_of s), t. split; [reflexivity|]. apply M. }
  split; [exact Ok|]. split; [exact Ar|]. split.
  { apply Ac. intros j d fs a Ed Em. apply Fit; [now apply nth_error_In in Ed|]. clear - Om Ed Em. revert j d fs a Ed Em.
    induction Om as [|ds ms d0 fs0 a0 Om IH F A N]; intros j d fs a Ed Em; [now destruct j|].
    assert (L : length ds = length ms) by (clear - Om; induction Om; [reflexivity|rewrite !app_length; cbn; lia]).
    destruct (Nat.lt_ge_cases j (length ms)) as [X|X]; [rewrite nth_error_app1 in Ed, Em by lia; eapply IH; eassumption|].
    rewrite nth_error_app2 in Ed, Em by lia. rewrite L in Ed. destruct (j - length ms) as [|[|k]]; try discriminate. injection Ed as <-. injection Em as <- <-. exact A. }
  split; [cbn [c_actions]; now rewrite map_length, La, Lt|].
  cbn [c_patterns c_actions]. intros p q deleg k act attr Eq Ep Ea. rewrite nth_error_map in Eq. destruct (nth_error trees p) as [t|] eqn:Et; [|discriminate]. cbn in Eq. injection Eq as <-.
  destruct (Forall2_nth _ _ _ Pm p t Et) as (d & Ed & Md). destruct (or_empty_actions entries p d Ed) as (act' & Ea' & Edl & Efn). fold acts in Ea'. rewrite Ea in Ea'. injection Ea' as <- ->.
  assert (Edg : deleg = pd_deleg d). { pose proof (f_equal (fun l => nth_error l p) Dl) as X. cbn in X. rewrite !nth_error_map, Ep, Ed in X. cbn in X. congruence. }
  rewrite Edg, Edl. destruct act as [|ts|]; cbn; [reflexivity| |reflexivity]. split; [reflexivity|].
  apply (proj1 (proj2 fits_drop)); [|now apply (Free p ts (pd_attr d) t)]. rewrite (Efn ts eq_refl) in Md. exact (func_decl_mean _ _ _ _ _ _ _ _ Md _ (sym_of_slots s)).
Qed.
Print Assumptions construct_exact.

(* The constructor succeeds if the declarations are as they should be. *)
Theorem construct_succeeds alnum narrow options entries config accepts parses ms trees : locale_ok alnum narrow ->
  options_mean alnum narrow options ms -> Forall2 (pattern_mean alnum narrow options ms) (or_empty (map entry_decl entries)) trees ->
  exists fuel0, forall fuel, fuel0 <= fuel -> exists c, construct alnum narrow fuel options entries config accepts parses = POk c.
Proof.
  intros Lok Om Pm. destruct (func_decls_build alnum narrow options (map entry_decl entries) ms trees Lok Om Pm) as (f & F).
  - intros d Hd. apply in_map_iff in Hd as (e & <- & _). destruct e as [pat attr [|ts|]]; [right; right; now exists true|right; left; now exists pat, attr, ts|now left].
  - exists f. intros fuel Hf. destruct (F fuel Hf) as (st & s & ps & E). unfold construct. rewrite E. eexists. reflexivity.
Qed.
Print Assumptions construct_succeeds.

(* ---- concrete case: the processor of CliBuildProps.v, which delegates to itself ---- *)

(* arguments that begin with x are not accepted, neither by options nor as values *)
Definition no_x (t : text) : bool := match t with 120 :: _ => false | _ => true end.
Definition ex_c : command :=
  Command ex_s ex_st (snd ex_built)
    [(PFunc (TCons (TValue 0) TNil), 0%Z); (PFunc (TCons TBool (TCons TBool TNil)), 1%Z); (PDeleg, 0%Z)] strict
    (fun _ => no_x) (fun _ => no_x).
Definition ex_qs : list tseq := [ex_tree_1; ex_tree_2; ex_tree_3].
Definition ex_keyword (c : string) : ptree := PLeaf (LKeyword (txt c)).
Definition ex_ptrees : list ptree :=
  [ PJux (ex_keyword "add") (PLeaf (LSlot (txt "<name>"))); PJux (ex_keyword "list") (PJux (POpt (PLeaf (LLong (txt "--all")))) (POpt (PLeaf (LShort (txt "-q")))));
    ex_keyword "run" ].
Lemma ex_trees : ex_qs = map (fun t => elements (sym_of ex_s) (Some t)) ex_ptrees.
Proof. vm_compute. reflexivity. Qed.
Lemma ex_works : works ex_c ex_qs.
Proof.
  split; [discriminate|]. split.
  - assert (Y : forall i y e, e_type e = t_sym -> e_end_pos e = S i -> e_is_param e = is_slot y -> e_collapsible e = false -> nth_error (ps_syms ex_st) (e_index e) = Some y -> full_elem ex_st e (ESym i y)) by (intros; now apply full_sym).
    assert (N : forall i y q, false = true <-> nullable (SCons (ESym i y) q)) by (intros; apply sym_first).
    assert (P : forall k q f t, full_seq ex_st k q -> q = elements f t -> ok_q q = true -> pattern_works ex_st k q).
    { intros k q f t F E O. split; [exact F|]. exists f, t. split; [exact E|]. subst q. intros A. apply ambiguous_iff in A as (m & A); [|apply elements_numbered]. revert m A. apply ok_iff; [apply elements_numbered|exact O]. }
    constructor; [|constructor; [|constructor; [|constructor]]].
    + apply (P _ _ (sym_of ex_s) (nth_error ex_ptrees 0)); [|reflexivity|reflexivity]. eapply full_seq_intro; [reflexivity| |reflexivity|reflexivity|apply N].
      eapply full_cons; [reflexivity|now apply Y|]. eapply full_cons; [reflexivity|now apply Y|constructor].
    + apply (P _ _ (sym_of ex_s) (nth_error ex_ptrees 1)); [|reflexivity|reflexivity]. eapply full_seq_intro; [reflexivity| |reflexivity|reflexivity|apply N].
      eapply full_cons; [reflexivity|now apply Y|]. eapply full_cons; [reflexivity| |].
      { apply full_opt; try reflexivity; [|now split]. eapply full_seq_intro; [reflexivity| |reflexivity|reflexivity|apply N]. eapply full_cons; [reflexivity|now apply Y|constructor]. }
      eapply full_cons; [reflexivity| |constructor].
      apply full_opt; try reflexivity; [|now split]. eapply full_seq_intro; [reflexivity| |reflexivity|reflexivity|apply N]. eapply full_cons; [reflexivity|now apply Y|constructor].
    + apply (P _ _ (sym_of ex_s) (nth_error ex_ptrees 2)); [|reflexivity|reflexivity]. eapply full_seq_intro; [reflexivity| |reflexivity|reflexivity|apply N].
      eapply full_cons; [reflexivity|now apply Y|constructor].
  - destruct ex_spec_ok as (A & B & C). do 3 (split; [assumption|]). split; [reflexivity|].
    intros [|[|[|p]]] q deleg k act attr Eq Ep Ea; [| | |now destruct p]; injection Eq as <-; injection Ep as <- <-; injection Ea as <- <-; cbn; repeat split; repeat constructor.
Qed.

Definition ex_go (args : list string) (ln : line) := run 45 61 (map txt args) 2000 2000 ex_c ln.
(* the last one in a chain of delegations *)
Fixpoint ex_chain (n : nat) (args : list string) (ln : line) :=
  match n, ex_go args ln with
  | S n, Ok (_, EDelegated _ ln') => ex_chain n args ln'
  | _, o => o
  end.

Example run_ex : works ex_c ex_qs /\
  (exists ln, ex_go ["prog"; "-v"; "run"; "-ofoo"; "run"; "list"; "-aq"]%string root_line = Ok ([], EDelegated 2 ln) /\ l_offset ln = 3) /\
  (* delegation twice: options of all levels are performed, and the function is called *)
  ex_chain 2 ["prog"; "-v"; "run"; "-ofoo"; "run"; "list"; "-aq"]%string root_line =
    Ok ([(0, (0, None)); (1, (1, Some (txt "foo"))); (2, (5, None))], ECalled 1 [ABool true; ABool true] true) /\
  (* the errors of all levels: the argument of an option at the first and at the second level,
     and a missing argument at the second level *)
  ex_chain 2 ["prog"; "-ox1"; "run"; "add"; "-lx2"; "x3"; "-o"]%string root_line =
    Ok ([(0, (1, Some (txt "x1"))); (1, (2, Some (txt "x2")))],
      EErrors [Perror 1 bad_option_arg (bad_arg (txt "x1") (txt "-o") (txt "-ox1", None));
               Perror 4 bad_option_arg (bad_arg (txt "x2") (txt "-l") (txt "-lx2", None));
               Perror 6 bad_option (missing_arg (txt "-o"))]) /\
  (* an argument that is not accepted as a value *)
  ex_chain 2 ["prog"; "-ox1"; "run"; "add"; "x3"; "-lx2"]%string root_line =
    Ok ([(0, (1, Some (txt "x1"))); (1, (2, Some (txt "x2")))],
      EErrors [Perror 1 bad_option_arg (bad_arg (txt "x1") (txt "-o") (txt "-ox1", None));
               Perror 4 bad_pattern_arg (bad_value (txt "x3"));
               Perror 5 bad_option_arg (bad_arg (txt "x2") (txt "-l") (txt "-lx2", None))]) /\
  (* an option with short-circuit *)
  ex_chain 2 ["prog"; "-v"; "run"; "--help"; "-z"]%string root_line = Ok ([], EShorted 3).
Proof.
  split; [exact ex_works|]. split; [eexists; split; vm_compute; reflexivity|]. repeat split; vm_compute; reflexivity.
Qed.

(* The processor is one that the constructor produces, and mismatched functions are rejected. *)
Definition ex_entries (ts : ptypes) : list entry :=
  [Entry (txt "add <name>") 0 (PFunc (TCons (TValue 0) TNil)); Entry (txt "list [--all] [-q]") 1 (PFunc ts); Entry (txt "run") 0 PDeleg].
Example construct_ex : locale_ok ascii_alnum ascii_narrow /\
  construct ascii_alnum ascii_narrow 300 ex_options (ex_entries (TCons TBool (TCons TBool TNil))) strict (fun _ => no_x) (fun _ => no_x) = POk ex_c /\
  construct ascii_alnum ascii_narrow 300 ex_options (ex_entries (TCons TBool TNil)) strict (fun _ => no_x) (fun _ => no_x) =
    PErr pattern_func_mismatch func_mismatch.
Proof. split; [exact ascii_ok|]. split; vm_compute; reflexivity. Qed.

(* a command line that is one level down, and the processors above it *)
Example lineage_ex : exists ls ln, length ls = 1 /\ lineage 45 61 (map txt ["prog"; "run"; "-z"]%string) ls 2 false /\ at_line ln ls 2.
Proof.
  destruct outcome_ex as (gs & g & R & C & F). destruct (comes_opts _ _ _ _ _ _ _ _ C) as (l & rest & T1 & T2).
  exists [Level ex_c l g], (Line [Ancestor ex_c (g_options g) (g_errors g) (g_failed g)] 2). split; [reflexivity|]. split.
  - cut (lineage 45 61 (map txt ["prog"; "run"; "-z"]%string) [Level ex_c l g] 2 (g_failed g)); [now rewrite F|].
    eapply ln_deleg with (qs := ex_qs) (gs := gs); [apply ln_root|exact ex_works|exact R|exact C|]. split; [now exists rest|exact T2].
  - split; [|reflexivity]. constructor; [now split|constructor].
Qed.
