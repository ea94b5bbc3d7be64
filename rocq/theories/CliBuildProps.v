(* Theorems about the construction of the command-line processor (properties C87 and C88). *)
From Coq Require Import String Ascii List Arith Bool ZArith Lia.
From Verif Require Import CliPatternModel CliPatternSpec CliMatcherModel CliMatcherSpec CliSpecModel CliRecorderModel CliRecorderSpec CliSpecProofs CliRecorderProofs2
  CliRecorderProps CliParserModel CliParserSpec CliParserProps CliAmbigProofs CliValueProofs CliOptionSpec CliOptionProps CliProcessorModel CliProcessorSpec
  CliBuildModel CliBuildSpec CliBuildProofs CliBuildProofs2 CliBuildProofs3.
Import ListNotations.

(* An example:
     -v, --verbose; -o, --output <file>; -l [<n>]; --help; --; -a, --all
     add <name>
     list [--all] [-q]
     run (delegating) *)
Definition txt (x : string) : text := map nat_of_ascii (list_ascii_of_string x).
Definition ex_options : list option_decl :=
  [ Option_decl (txt "-v, --verbose") (txt "") 0 (Action false false);
    Option_decl (txt "-o, --output") (txt "<file>") 0 (Action true true);
    Option_decl (txt "-l") (txt "[<n>]") 0 (Action true false);
    Option_decl (txt "--help") (txt "") 1 (Action false false);
    Option_decl (txt "--") (txt "") 2 (Action false false);
    Option_decl (txt "-a, --all") (txt "") 0 (Action false false) ].
Definition ex_patterns : list pattern_decl :=
  [ Pattern_decl (txt "add <name>") 0 false (fun _ _ => true); Pattern_decl (txt "list [--all] [-q]") 0 false (fun _ _ => true);
    Pattern_decl (txt "run") 0 true (fun _ _ => true) ].
Definition ex_built : structure * spec * list (nat * bool) := Eval vm_compute in
  match build ascii_alnum ascii_narrow 300 ex_options ex_patterns with POk x => x | _ => (Structure [] [] [] [], empty_spec, []) end.
Definition ex_s : spec := snd (fst ex_built).
Definition ex_st : structure := fst (fst ex_built).
Lemma ex_build_ok : build ascii_alnum ascii_narrow 300 ex_options ex_patterns = POk ex_built.
Proof. vm_compute. reflexivity. Qed.

(* C87: the constructor fails exactly if one of the options or patterns is not as it should
   be, and then because of the first one of them, options before patterns; otherwise, all of
   them are registered, and the patterns are recorded. *)
Theorem build_exact alnum narrow options patterns : locale_ok alnum narrow -> exists fuel0, forall fuel, fuel0 <= fuel ->
  match build alnum narrow fuel options patterns with
  | POk (st, s, ps) => exists ms ts, options_mean alnum narrow options ms /\
      Forall2 (pattern_mean alnum narrow options ms) (or_empty patterns) ts /\
      spec_ok s /\ registered options ms ts s /\ map snd ps = map pd_deleg (or_empty patterns) /\
      Forall2 (full_seq st) (map fst ps) (map (elements (sym_of s)) ts)
  | PErr c m =>
      (exists l1 d l2 ms, options = l1 ++ d :: l2 /\ options_mean alnum narrow l1 ms /\ option_wrong alnum narrow ms d c m) \/
      (exists l1 d l2 ms ts, options_mean alnum narrow options ms /\ patterns = l1 ++ d :: l2 /\
        Forall2 (pattern_mean alnum narrow options ms) l1 ts /\ pattern_wrong alnum narrow options ms d c m)
  | PBad => False
  end.
Proof.
  intros Lok. destruct (build_options_exact alnum narrow Lok options) as (f1 & F1). destruct (build_patterns_exact alnum narrow Lok patterns) as (f2 & F2).
  set (e := Pattern_decl [] 0 false (fun _ _ => true)). destruct (pattern_step alnum narrow Lok e) as (f3 & F3).
  exists (f1 + f2 + f3). intros fuel Hf. specialize (F1 fuel [] [] empty_spec ltac:(lia) no_options (om_none alnum narrow)). unfold build. cbn [length] in F1.
  destruct (build_options alnum narrow fuel empty_spec 0 options) as [s|c m|]; cbn [pbind]; [| |easy].
  2: { left. destruct F1 as (l1 & d & l2 & ms & E & A & B). now exists l1, d, l2, ms. }
  destruct F1 as (ms & O & M). cbn [app] in O, M.
  assert (P0 : pats_in alnum narrow options ms [] [] (Structure [] [] [] []) s []).
  { split; [apply (oi_open _ _ _ O)|now apply opts_registered|constructor|reflexivity|constructor]. }
  specialize (F2 options ms fuel [] [] _ _ _ ltac:(lia) P0). cbn [length app] in F2.
  destruct (build_patterns alnum narrow fuel (Structure [] [] [] []) s [] 0 patterns) as [[[st1 s1] ps]|c m|]; cbn [pbind]; [| |easy].
  2: { right. destruct F2 as (l1 & d & l2 & ts & E & A & B). now exists l1, d, l2, ms, ts. }
  destruct F2 as (ts & P). pose proof (pi_length _ _ _ _ _ _ _ _ _ P) as Ln. rewrite Ln.
  destruct patterns as [|p patterns]; cbn [length Nat.eqb or_empty].
  - specialize (F3 options ms fuel [] ts st1 s1 ps ltac:(lia) P). cbn [length pd_pattern pd_deleg pd_attr pd_fits e] in F3.
    destruct (parse_pattern alnum narrow fuel [] st1 s1 0 false) as [[[st2 s2] k]|c m|]; cbn [pbind] in *; [|now apply empty_not_wrong in F3|easy].
    destruct (add_pattern s2 0 k false (fun _ _ => true) st2) as [s3|c m|]; cbn [pbind] in *; [|now apply empty_not_wrong in F3|easy].
    destruct F3 as (t & [P1 P2 P3 P4 P5]). exists ms, (ts ++ [t]). now repeat (split; [assumption|]).
  - destruct P as [P1 P2 P3 P4 P5]. exists ms, ts. now repeat (split; [assumption|]).
Qed.
Print Assumptions build_exact.
Example build_ex : locale_ok ascii_alnum ascii_narrow /\ build ascii_alnum ascii_narrow 300 ex_options ex_patterns = POk ex_built /\
  build ascii_alnum ascii_narrow 300 (ex_options ++ [Option_decl (txt "-b, --all") (txt "") 0 (Action false false)]) ex_patterns = PErr option_form_reuse (form_reuse 6) /\
  build ascii_alnum ascii_narrow 300 ex_options (ex_patterns ++ [Pattern_decl (txt "[-v | -o]") 0 false (fun _ _ => true)]) = PErr bad_option_ref ref_takes_arg.
Proof. split; [exact ascii_ok|]. repeat split; vm_compute; reflexivity. Qed.

(* The declarations decide what the options and patterns mean. *)
Theorem options_mean_unique alnum narrow ds ms ms' : locale_ok alnum narrow -> options_mean alnum narrow ds ms -> options_mean alnum narrow ds ms' -> ms = ms'.
Proof.
  intros Lok H. revert ms'. induction H as [|ds ms d fs a H IH F A N]; intros ms' H'.
  - inversion H' as [E|ds' ms'' d' fs' a' H'' F' A' N' E]; [reflexivity|]. now destruct ds'.
  - inversion H' as [E|ds' ms'' d' fs' a' H'' F' A' N' E]; [now destruct ds|]. apply app_inj_tail in E as [-> ->].
    rewrite (IH _ H''). rewrite (forms_mean_unique _ _ _ _ _ Lok F F'), (arg_means_unique _ _ _ _ _ Lok A A'). reflexivity.
Qed.

Print Assumptions options_mean_unique.

(* Conversely, declarations that are as they should be are accepted.  Whether a function fits
   a pattern depends only on the pattern. *)
Lemma options_prefix alnum narrow l2 : forall l1 ms, options_mean alnum narrow (l1 ++ l2) ms -> exists ms1 ms2, ms = ms1 ++ ms2 /\ options_mean alnum narrow l1 ms1.
Proof.
  induction l2 as [|d l2 IH] using rev_ind; intros l1 ms H; [rewrite app_nil_r in H; exists ms, []; now rewrite app_nil_r|].
  rewrite app_assoc in H. inversion H as [E|ds ms' d' fs a H' F A N E]; [now destruct (l1 ++ l2)|]. apply app_inj_tail in E as [-> ->].
  destruct (IH _ _ H') as (ms1 & ms2 & -> & M). exists ms1, (ms2 ++ [(fs, a)]). now rewrite app_assoc.
Qed.
Theorem build_succeeds alnum narrow options patterns ms ts : locale_ok alnum narrow ->
  options_mean alnum narrow options ms -> Forall2 (pattern_mean alnum narrow options ms) (or_empty patterns) ts ->
  (forall d t st k f st' k' f', In d patterns -> slots_kept f -> slots_kept f' -> full_seq st k (elements f t) -> full_seq st' k' (elements f' t) -> pd_fits d st k = pd_fits d st' k') ->
  exists fuel0, forall fuel, fuel0 <= fuel -> exists st s ps, build alnum narrow fuel options patterns = POk (st, s, ps).
Proof.
  intros Lok Om Pm Fit. destruct (build_exact alnum narrow options patterns Lok) as (f & F). exists f. intros fuel Hf. specialize (F fuel Hf).
  destruct (build alnum narrow fuel options patterns) as [[[st s] ps]|c m|]; [now exists st, s, ps| |contradiction]. exfalso.
  destruct F as [(l1 & d & l2 & ms1 & -> & O1 & W)|(l1 & d & l2 & ms' & ts1 & O' & -> & _ & W)].
  - change (d :: l2) with ([d] ++ l2) in Om. rewrite app_assoc in Om. destruct (options_prefix _ _ _ _ _ Om) as (msa & msb & -> & H).
    inversion H as [E|ds ms0 d' fs a H' F A N E]; [now destruct l1|]. apply app_inj_tail in E as [-> ->].
    rewrite <- (options_mean_unique _ _ _ _ _ Lok O1 H') in *. destruct W as [(_ & W)|(fs' & F' & W)]; [now apply W in F|].
    rewrite <- (forms_mean_unique _ _ _ _ _ Lok F F') in *. destruct W as [(_ & W)|(a' & A' & W)]; [now apply W in A|].
    rewrite <- (arg_means_unique _ _ _ _ _ Lok A A') in *. now apply N in W.
  - rewrite <- (options_mean_unique _ _ _ _ _ Lok Om O') in *. replace (or_empty (l1 ++ d :: l2)) with (l1 ++ d :: l2) in Pm by (destruct l1; reflexivity).
    apply Forall2_app_inv_l in Pm as (ta & tb & _ & Pm & _). inversion Pm as [|d' t l2' tb' (M & Am & Rf & At & Ft) Pm' ]; subst.
    destruct W as [(_ & W)|(t' & M' & W)]; [now apply (syntax_flaw_excludes _ _ _ _ _ Lok W t)|].
    rewrite <- (pattern_means_unique _ _ _ _ _ _ Lok M M') in *.
    destruct W as [(_ & W)|[(_ & l & Hl & W)|[(_ & _ & n & Hn & W)|(_ & _ & Dg & st & k & f0 & Sk & Fs & W)]]].
    + apply (Am (fun _ => dummy_symbol)). apply ambiguous_iff; [destruct t as [t|]; [apply (shape_from _ t 0)|reflexivity]|]. exists m. apply W.
    + now apply (Rf l m Hl).
    + rewrite (At n Hn) in W. discriminate.
    + destruct Ft as [E|(st' & k' & f' & Sk' & Fs' & E)]; [congruence|].
      rewrite (Fit d t st k f0 st' k' f') in W; [congruence|apply in_or_app; right; now left|assumption..].
Qed.
Print Assumptions build_succeeds.
(* -x, --bar; -o [<a>]; foo [-x] *)
Definition small_options : list option_decl :=
  [Option_decl (txt "-x, --bar") (txt "") 0 (Action false false); Option_decl (txt "-o") (txt "[<a>]") 0 (Action true false)].
Definition small_patterns : list pattern_decl := [Pattern_decl (txt "foo [-x]") 0 false (fun _ _ => true)].
Definition small_meaning : list meaning :=
  [([Oform false [45; 120]; Oform true [45; 45; 98; 97; 114]], Argspec false false); ([Oform false [45; 111]], Argspec true false)].
Definition small_tree : ptree := PJux (PLeaf (LKeyword [102; 111; 111])) (POpt (PLeaf (LShort [45; 120]))).
Lemma no_bits n : ~ ((3 <= n)%Z /\ Z.testbit 0 n = true).
Proof. rewrite Z.testbit_0_l. easy. Qed.
Example small_meant : options_mean ascii_alnum ascii_narrow small_options small_meaning /\
  Forall2 (pattern_mean ascii_alnum ascii_narrow small_options small_meaning) (or_empty small_patterns) [Some small_tree].
Proof.
  split.
  - apply (om_more _ _ [_] [_] (Option_decl (txt "-o") (txt "[<a>]") 0 (Action true false)) [Oform false [45; 111]] (Argspec true false)).
    + apply (om_more _ _ [] [] (Option_decl (txt "-x, --bar") (txt "") 0 (Action false false))); [constructor|exact parse_option_forms_ex|constructor; apply (lexes_end _ _ 0)|].
      intros c m [(_ & _ & E)|[(_ & _ & n & E)|[(_ & _ & E & _)|[(_ & _ & E & _)|[(_ & _ & E & _)|[(_ & _ & E & _)|(_ & f & j & _ & _ & fs & a & g & E & _)]]]]]]; try discriminate;
        [now apply no_bits in E|now destruct j].
    + apply fmean_forms with (ts := [Token t_short_option [45; 111] false]) (l := [PLeaf (LShort [45; 111])]).
      * apply (lexes_token _ _ 0 t_short_option [45; 111]); [constructor; discriminate|]. apply (lexes_end _ _ 0).
      * do 4 constructor. apply g_short.
      * repeat constructor.
    + exact parse_option_arg_ex.
    + intros c m [(_ & _ & E)|[(_ & _ & n & E)|[(_ & _ & _ & E)|[(_ & _ & _ & E)|[(_ & _ & _ & E)|[(_ & _ & _ & _ & E)|(_ & f & j & _ & [<-|[]] & fs & a & g & E & H & G)]]]]]]; try discriminate.
      * now apply no_bits in E.
      * destruct j as [|[|j]]; try discriminate. injection E as <- <-. destruct H as [<-|[<-|[]]]; easy.
  - constructor; [|constructor]. split; [|split; [|split; [|split]]].
    + apply means_tree with (ts := [Token t_keyword [102; 111; 111] false; Token t_left_sq_bracket [91] true; Token t_short_option [45; 120] false; Token t_right_sq_bracket [93] false]); [| |reflexivity].
      * apply (lexes_token _ _ 0 t_keyword [102; 111; 111]); [constructor; try reflexivity; cbv; intuition lia|].
        apply (lexes_token _ _ 1 t_left_sq_bracket [91]); [constructor|].
        apply (lexes_token _ _ 0 t_short_option [45; 120]); [constructor; discriminate|].
        apply (lexes_token _ _ 0 t_right_sq_bracket [93]); [constructor|]. apply (lexes_end _ _ 0).
      * apply (g_jux_more [_] _ _ [_; _]); [do 2 constructor; apply g_keyword|reflexivity|]. constructor.
        apply (g_brackets _ _ [_]); [reflexivity|reflexivity|]. do 3 constructor. apply g_short.
    + intros f A. apply ambiguous_iff in A as (m & A); [|apply (shape_from f small_tree 0)].
      revert A. change (elements f (Some small_tree)) with (SCons (ESym 0 (f (LKeyword [102; 111; 111]))) (SCons (EOpt (SCons (ESym 1 (f (LShort [45; 120]))) SNil)) SNil)).
      apply ok_iff; [apply (shape_from f small_tree 0)|reflexivity].
    + intros l m [<-|[<-|[]]] (j & d & fs & a & (fs' & a' & g & E & H & S') & Ed & Em & X).
      * rewrite Em in E. injection E as <- <-. destruct j as [|[|j]]; try (now destruct j); injection Em as <- <-; [destruct H as [<-|[<-|[]]]|destruct H as [<-|[]]]; easy.
      * rewrite Em in E. injection E as <- <-. destruct j as [|[|j]]; try (now destruct j); injection Em as <- <-; injection Ed as <-.
        -- destruct X as [(_ & X)|[(_ & X)|(_ & X)]]; discriminate.
        -- destruct H as [<-|[]]. easy.
    + intros n _. apply Z.testbit_0_l.
    + right. exists (Structure [Psym s_keyword 0; Psym s_proto_option 0] [Elem t_sym false false 0 1; Elem t_opt true true 1 2; Elem t_sym false false 1 2] [Seq 2 0 1 2 false; Seq 1 2 0 2 false] []), 0.
      exists (fun l => match l with LKeyword _ => Psym s_keyword 0 | LSlot _ => Psym s_value_slot 0 | _ => Psym s_proto_option 0 end). split; [now intros [x|x|x|x]|]. split; [|reflexivity]. cbn.
      assert (N : forall i y q, false = true <-> nullable (SCons (ESym i y) q)) by (intros i y q; split; [discriminate|]; intros H; inversion H as [|e q' w1 w2 A B]; subst; inversion A; subst; discriminate).
      eapply full_seq_intro; [reflexivity| |reflexivity|reflexivity|apply N].
      eapply full_cons; [reflexivity|now apply full_sym|]. eapply full_cons; [reflexivity| |constructor]. apply full_opt; try reflexivity; [|now split].
      eapply full_seq_intro; [reflexivity| |reflexivity|reflexivity|apply N]. eapply full_cons; [reflexivity|now apply full_sym|constructor].
Qed.
Example small_builds : exists fuel0, forall fuel, fuel0 <= fuel -> exists st s ps, build ascii_alnum ascii_narrow fuel small_options small_patterns = POk (st, s, ps).
Proof.
  apply build_succeeds with (ms := small_meaning) (ts := [Some small_tree]); [exact ascii_ok|apply small_meant|apply small_meant|].
  intros d t st k f st' k' f' [<-|[]]. reflexivity.
Qed.

(* C88: what can be relied on when the arguments are processed *)
Lemma options_args alnum narrow ds ms : options_mean alnum narrow ds ms -> forall j fs a, nth_error ms j = Some (fs, a) -> ar_require a = true -> ar_allow a = true.
Proof.
  induction 1 as [|ds ms d fs a H IH F A N]; intros j fs' a' E Hr; [now destruct j|].
  destruct (Nat.lt_ge_cases j (length ms)) as [L|L]; [rewrite nth_error_app1 in E by easy; now apply (IH j fs' a')|].
  rewrite nth_error_app2 in E by easy. destruct (j - length ms) as [|[|k]]; cbn in E; try discriminate. injection E as -> ->. now destruct A.
Qed.

Theorem built_usable alnum narrow ds ms ps ts st s ks : options_mean alnum narrow ds ms -> Forall2 (pattern_mean alnum narrow ds ms) ps ts ->
  spec_ok s -> registered ds ms ts s -> Forall2 (full_seq st) ks (map (elements (sym_of s)) ts) ->
  Forall2 (rep_pattern st) ks (map (elements (sym_of s)) ts) /\ args_known s /\
  (actions_fit s <-> forall j d fs a, nth_error ds j = Some d -> nth_error ms j = Some (fs, a) -> ar_require a = false -> ac_require (od_action d) = false).
Proof.
  intros Om Pm Ok Rg Fu. split; [|split].
  - assert (N : forall t, numbered (elements (sym_of s) t)) by (intros [t|]; [apply (shape_from (sym_of s) t 0)|reflexivity]).
    clear Pm Rg. remember (map (elements (sym_of s)) ts) as qs eqn:Eq. revert ts Eq. induction Fu as [|k q ks qs F Fu IH]; intros ts Eq; constructor.
    + destruct ts as [|t ts]; [discriminate|]. injection Eq as -> ->. now apply full_rep_pattern.
    + destruct ts as [|t ts]; [discriminate|]. injection Eq as -> ->. now apply (IH ts).
  - pose proof Rg as (_ & R2 & R3 & _ & R5 & _ & R7 & R8). split.
    + intros d o E Hr. destruct (forall2_nth _ _ _ _ _ _ R2 E) as (dd & [fs a] & Ed & Em & A1 & _). cbn in A1. rewrite A1 in *.
      eapply options_args; eassumption.
    + intros i p d o Ei Np Eo E. destruct (forall2_nth _ _ _ _ _ _ R2 E) as (dd & [fs a] & Ed & Em & A1 & _). cbn in A1. rewrite A1.
      assert (Pi : proto_at s i = p) by (unfold proto_at; now rewrite Ei). destruct (proj1 (R8 i)) as (l & Hl & El); [congruence|].
      apply in_flat_map in Hl as (t & Ht & Hl). assert (exists e, pattern_mean alnum narrow ds ms e t) as (e & M).
      { clear - Pm Ht. induction Pm as [|e t' ps ts M Pm IH]; [easy|]. destruct Ht as [<-|Ht]; [now exists e|auto]. }
      assert (N : option_name l) by (eapply leaf_name; [eapply means_ok; [apply M|exact Hl]|exact El]).
      destruct (ar_allow a) eqn:Ea; [|reflexivity]. exfalso. destruct M as (_ & _ & M & _). apply (M l ref_takes_arg Hl).
      exists d, dd, fs, a. split; [apply (R7 l i d N El); congruence|]. auto.
  - destruct Rg as (_ & R2 & R3 & _). unfold actions_fit. split.
    + intros H j d fs a Ed Em Hr. destruct (forall2_nth_r _ _ _ _ _ _ _ R2 Ed Em) as (o & Eo & A1 & _ & A3 & _). cbn in A1, A3. rewrite <- A3. apply (H j o Eo). congruence.
    + intros H j o Eo Hr. destruct (forall2_nth _ _ _ _ _ _ R2 Eo) as (d & [fs a] & Ed & Em & A1 & _ & A3 & _). cbn in A1, A3. rewrite A3. apply (H j d fs a Ed Em). congruence.
Qed.
Print Assumptions built_usable.
Example built_ex : exists st s ks, options_mean ascii_alnum ascii_narrow small_options small_meaning /\
  Forall2 (pattern_mean ascii_alnum ascii_narrow small_options small_meaning) (or_empty small_patterns) [Some small_tree] /\
  spec_ok s /\ registered small_options small_meaning [Some small_tree] s /\ Forall2 (full_seq st) ks (map (elements (sym_of s)) [Some small_tree]).
Proof.
  destruct small_builds as (f1 & F1). destruct (build_exact ascii_alnum ascii_narrow small_options small_patterns ascii_ok) as (f2 & F2).
  destruct (F1 (f1 + f2)) as (st & s & ps & E); [lia|]. specialize (F2 (f1 + f2)). rewrite E in F2. destruct F2 as (ms & ts & Om & Pm & Ok & Rg & _ & Fu); [lia|].
  destruct small_meant as (Om' & Pm'). rewrite <- (options_mean_unique _ _ _ _ _ ascii_ok Om' Om) in *.
  assert (ts = [Some small_tree]) as ->.
  { inversion Pm as [|d t l ts' (M & _) Pm2]; subst. inversion Pm2; subst. inversion Pm' as [|d' t' l' ts' (M' & _) Pm3]; subst.
    f_equal. eapply pattern_means_unique; [exact ascii_ok|exact M|exact M']. }
  now exists st, s, (map fst ps).
Qed.

(* What is found by a name *)
Definition finds (s : spec) (l : leaf) (p : option nat) : Prop :=
  match l with
  | LShort x => exists c, nth_error x 1 = Some c /\ p = find_short s c
  | LLong x => 2 <= length x /\ p = find_long s (skipn 2 x)
  | _ => False
  end.
Theorem names_exact ds ms ts s l p : spec_ok s -> registered ds ms ts s -> (forall x, In x (flat_map tree_leaves ts) -> leaf_ok x) -> finds s l p ->
  (p = None <-> (forall j, ~ is_form ms l j) /\ forall l', In l' (flat_map tree_leaves ts) -> ~ same_form l l') /\
  (p <> None -> exists k, knows s p k) /\
  (forall k, knows s p k ->
    match kn_decl k with
    | Some (j, o) => is_form ms l j /\ exists d fs, nth_error ds j = Some d /\ nth_error ms j = Some (fs, o_arg o) /\ o_attr o = od_attr d /\ o_action o = od_action d
    | None => forall j, ~ is_form ms l j
    end /\
    (kn_pattern k = true <-> exists l', In l' (flat_map tree_leaves ts) /\ (same_form l l' \/ exists j, is_form ms l j /\ is_form ms l' j))).
Proof.
  intros Ok (R1 & R2 & R3 & R4 & R5 & R6 & R7 & R8) Lv F.
  assert (N : option_name l). { destruct l as [x|x|x|x]; cbn in *; try easy. destruct F as (c & E & _). destruct x as [|a [|b x]]; try discriminate. cbn. lia. }
  assert (Sy : sym_in s l = option_map (Psym s_proto_option) p).
  { destruct l as [x|x|x|x]; cbn [finds sym_in] in *; try easy; [destruct F as (c & -> & ->)|destruct F as (_ & ->)]; reflexivity. }
  split; [|split].
  - specialize (R5 l N). rewrite Sy in R5. destruct p as [i|]; cbn in R5; split; try easy.
    + intros (H1 & H2). destruct (proj1 R5) as [(j & H)|(l' & H & H')]; [easy| |]; [now apply H1 in H|now apply H2 in H].
    + intros _. split; [intros j H; apply (proj2 R5); [left; now exists j|reflexivity]|intros l' H H'; apply (proj2 R5); [right; now exists l'|reflexivity]].
  - destruct p as [i|]; [intros _|easy]. cbn in Sy. pose proof (sym_in_bound _ _ _ Ok Sy) as L. destruct (nth_error (k_protos s) i) as [pr|] eqn:Ei; [|apply nth_error_None in Ei; lia].
    destruct (pr_option pr) as [j|] eqn:Ej.
    + pose proof (proj2 (proj2 (proj2 Ok)) i pr j Ei Ej) as Lj. destruct (nth_error (k_options s) j) as [o|] eqn:Eo; [|apply nth_error_None in Eo; lia].
      exists (Known i (if pr_pattern pr then true else false) (Some (j, o))). split; [reflexivity|]. exists pr. cbn. split; [exact Ei|]. split; [now destruct (pr_pattern pr)|easy].
    + exists (Known i (if pr_pattern pr then true else false) None). split; [reflexivity|]. exists pr. cbn. split; [exact Ei|]. split; [now destruct (pr_pattern pr)|easy].
  - intros k (-> & pr & Ei & Kp & Kd). cbn in Sy. assert (Pa : proto_at s (kn_symbol k) = pr) by (unfold proto_at; now rewrite Ei). split.
    + destruct (kn_decl k) as [[j o]|].
      * destruct Kd as (Ej & Eo). split; [apply (R7 l (kn_symbol k) j N Sy); congruence|].
        destruct (forall2_nth _ _ _ _ _ _ R2 Eo) as (d & [fs a] & Ed & Em & A1 & A2 & A3 & _). cbn in *. exists d, fs. rewrite A1. auto.
      * intros j H. apply (R7 l (kn_symbol k) j N Sy) in H. congruence.
    + rewrite Kp. rewrite <- Pa. rewrite (R8 (kn_symbol k)). split; intros (l' & H & H'); exists l'; (split; [exact H|]).
      * apply (R6 l l' (kn_symbol k) N); [eapply leaf_name; [now apply Lv|exact H']|exact Sy|exact H'].
      * apply (R6 l l' (kn_symbol k) N); [|exact Sy|exact H'].
        destruct H' as [H'|(j & _ & (fs & a & g & _ & _ & H'))]; pose proof (Lv l' H); destruct l, l'; try easy; now destruct (opt_form g).
Qed.
Print Assumptions names_exact.
(* -x is the first one of the options, and is used in the pattern; there is no -y *)
Example names_ex : exists s, spec_ok s /\ registered small_options small_meaning [Some small_tree] s /\
  (forall x, In x (flat_map tree_leaves [Some small_tree]) -> leaf_ok x) /\
  finds s (LShort (txt "-x")) (find_short s 120) /\ find_short s 120 <> None /\ finds s (LShort (txt "-y")) (find_short s 121) /\ find_short s 121 = None.
Proof.
  destruct built_ex as (st & s & ks & Om & Pm & Ok & Rg & Fu). exists s. split; [exact Ok|]. split; [exact Rg|].
  assert (Lv : forall x, In x (flat_map tree_leaves [Some small_tree]) -> leaf_ok x).
  { intros x [<-|[<-|[]]]; cbn; lia. }
  split; [exact Lv|].
  assert (Fx : finds s (LShort (txt "-x")) (find_short s 120)) by (exists 120; now split).
  assert (Fy : finds s (LShort (txt "-y")) (find_short s 121)) by (exists 121; now split).
  destruct (names_exact _ _ _ _ _ _ Ok Rg Lv Fx) as (Nx & _). destruct (names_exact _ _ _ _ _ _ Ok Rg Lv Fy) as (Ny & _).
  split; [exact Fx|]. split; [|split; [exact Fy|]].
  - intros E. apply Nx in E as (_ & E). apply (E (LShort [45; 120])); [now right; left|reflexivity].
  - apply Ny. split.
    + intros j (fs & a & g & E & H & S'). destruct j as [|[|j]]; try (now destruct j); injection E as <- <-; [destruct H as [<-|[<-|[]]]|destruct H as [<-|[]]]; easy.
    + intros l' [<-|[<-|[]]]; easy.
Qed.
