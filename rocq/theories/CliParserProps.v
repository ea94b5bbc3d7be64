(* Theorems about the parser of pattern strings, option forms, and option arguments
   (properties C80 and C81). *)
From Coq Require Import List Arith Bool ZArith Lia.
From Verif Require Import CliPatternModel CliPatternSpec CliSpecModel CliRecorderModel CliRecorderSpec CliRecorderProps CliParserModel CliParserSpec CliLexerProofs CliParserProofs CliParserProofs2 CliParserProofs3.
Import ListNotations.

(* ---- C80: tokens ---- *)

(* The next token is extracted if there is one, and what is extracted is the next token. *)
Theorem token_exact alnum narrow code z : locale_ok alnum narrow ->
  match extract_next_token alnum narrow code z with
  | POk z' =>
    z_nodes z' = z_nodes z /\ z_slot z' = z_slot z /\
    ((tk_type (z_next z') = t_end_of_input /\ z_curr z' = [] /\ exists n, z_curr z = repeat ch_space n) \/
     (exists n ty x, z_curr z = repeat ch_space n ++ x ++ z_curr z' /\ z_next z' = Token ty x (0 <? n) /\ lexeme_of alnum narrow ty x (z_curr z')))
  | PErr c _ =>
    c = code /\ (forall n, z_curr z <> repeat ch_space n) /\ forall n ty x r, z_curr z = repeat ch_space n ++ x ++ r -> ~ lexeme_of alnum narrow ty x r
  | PBad => False
  end.
Proof.
  intros Lok. unfold extract_next_token.
  change (extract_again alnum narrow code (S (length (z_curr z))) (z_curr z) false) with (next_token alnum narrow code (z_curr z)).
  pose proof (next_token_result alnum narrow code Lok (z_curr z)) as H. destruct (next_token alnum narrow code (z_curr z)) as [[tk r]|c m|] eqn:E; cbn [pbind]; [easy| |easy].
  split; [easy|]. split.
  - intros n En. now rewrite En, next_token_end in E.
  - intros n ty x r En L. rewrite En in E. now rewrite (next_token_good alnum narrow code Lok n ty x r L) in E.
Qed.
Print Assumptions token_exact.

(* A string consists of tokens in at most one way. *)
Theorem tokens_unique alnum narrow : locale_ok alnum narrow -> forall s ts ts', lexes alnum narrow s ts -> lexes alnum narrow s ts' -> ts = ts'.
Proof.
  intros Lok s ts ts' H. revert ts'. induction H as [n|n ty x s ts L H IH]; intros ts' H'.
  - apply lexes_inv in H'. destruct ts' as [|tk ts']; [easy|]. destruct H' as (m & ty & x & r & E & -> & L & _).
    pose proof (next_token_end alnum narrow bad_pattern_syntax Lok n) as A. rewrite E in A.
    rewrite (next_token_good alnum narrow bad_pattern_syntax Lok m ty x r L) in A. injection A as -> _ _. now apply lexeme_start in L.
  - apply lexes_inv in H'. pose proof (next_token_good alnum narrow bad_pattern_syntax Lok n ty x s L) as A. destruct ts' as [|tk ts'].
    + destruct H' as (m & E). rewrite E in A. rewrite next_token_end in A by easy. injection A as <- _ _. now apply lexeme_start in L.
    + destruct H' as (m & ty' & x' & r & E & -> & L' & H''). rewrite E in A. rewrite (next_token_good alnum narrow bad_pattern_syntax Lok m ty' x' r L') in A.
      injection A as -> -> Es ->. f_equal; [now rewrite Es|]. now apply IH.
Qed.
Print Assumptions tokens_unique.

(* ---- C81: the grammar ---- *)

(* A string has at most one tree. *)
Theorem parse_unique alnum narrow : locale_ok alnum narrow ->
  forall s ts ts' l l', lexes alnum narrow s ts -> lexes alnum narrow s ts' -> g_seq ts l -> g_seq ts' l' -> ts = ts' /\ l = l'.
Proof.
  intros Lok s ts ts' l l' A A' B B'. split; [now apply (tokens_unique alnum narrow Lok s)|].
  pose proof (reset_result alnum narrow bad_pattern_syntax Lok s) as R. destruct (reset alnum narrow bad_pattern_syntax s) as [[z b]|c m|] eqn:E; [| |easy].
  - destruct b.
    + pose proof (proj1 (parse_result alnum narrow bad_pattern_syntax Lok s z _ E (le_n _))) as P.
      destruct (parse _ _ _ _ z) as [[[z' i] p]|c m|]; [| |easy].
      * destruct P as (_ & P & _). apply (rep_top_unique (z_nodes z') i); eauto.
      * destruct P as (_ & P). exfalso. eapply P; eauto.
    + destruct R as (_ & _ & _ & _ & R). assert (X : ts = []) by (eapply tokens_unique; [exact Lok|exact A|now apply R]). subst ts.
      now apply g_seq_nonempty in B.
  - destruct R as (_ & R). exfalso. now apply (R ts).
Qed.
Print Assumptions parse_unique.

Theorem pattern_means_unique alnum narrow is_deleg x t t' : locale_ok alnum narrow ->
  pattern_means alnum narrow is_deleg x t -> pattern_means alnum narrow is_deleg x t' -> t = t'.
Proof.
  intros Lok. destruct 1 as [A|ts t A G _]; destruct 1 as [A'|ts' t' A' G' _].
  - easy.
  - assert (X : ts' = []) by (eapply tokens_unique; [exact Lok|exact A'|exact A]). subst ts'. now apply grammar_starts in G'.
  - assert (X : ts = []) by (eapply tokens_unique; [exact Lok|exact A|exact A']). subst ts. now apply grammar_starts in G.
  - destruct (parse_unique alnum narrow Lok x ts ts' [t] [t'] A A') as (_ & [= ->]); [now do 2 constructor| |easy]. now do 2 constructor.
Qed.

(* A string that has a flaw of syntax stands for nothing. *)
Theorem syntax_flaw_excludes alnum narrow is_deleg x m : locale_ok alnum narrow ->
  syntax_flaw alnum narrow is_deleg x m -> forall t, ~ pattern_means alnum narrow is_deleg x t.
Proof.
  intros Lok F t P. destruct F as [(_ & ts & l & A & G & N)|[(_ & ts & u & A & G & N)|[(_ & D & ts & u & A & G & N)|(E & N)]]]; destruct P as [A'|ts' t' A' G' D'].
  - assert (X : ts = []) by (eapply tokens_unique; [exact Lok|exact A|exact A']). subst ts. now apply g_seq_nonempty in G.
  - destruct (parse_unique alnum narrow Lok x ts ts' l [t'] A A' G) as (_ & ->); [now do 2 constructor|]. cbn in N. lia.
  - assert (X : ts = []) by (eapply tokens_unique; [exact Lok|exact A|exact A']). subst ts. now apply grammar_starts in G.
  - assert (X : ts = ts') by (eapply tokens_unique; [exact Lok|exact A|exact A']). subst ts'. now apply (N t').
  - assert (X : ts = []) by (eapply tokens_unique; [exact Lok|exact A|exact A']). subst ts. now apply grammar_starts in G.
  - destruct (parse_unique alnum narrow Lok x ts ts' [u] [t'] A A') as (_ & [= ->]); [now do 2 constructor|now do 2 constructor|]. now rewrite D, N in D'.
  - easy.
  - apply (N ts' [t']); [easy|]. now do 2 constructor.
Qed.
Print Assumptions syntax_flaw_excludes.

(* Pattern strings, from the string to the recorded structure.  The string stands for a
   tree, which is recorded as in record_exact; or it has a flaw of syntax; or the tree is
   structurally ambiguous or has a bad reference to an option. *)
Theorem parse_pattern_exact alnum narrow x is_deleg : locale_ok alnum narrow ->
  exists fuel0, forall st s pattern_index fuel, spec_ok s -> fuel0 <= fuel ->
  match parse_pattern alnum narrow fuel x st s pattern_index is_deleg with
  | POk (st', s', k) =>
    exists t, pattern_means alnum narrow is_deleg x t /\
    let q := elements (sym_of s') t in
    full_seq st' k q /\ numbered q /\ extends st st' /\ spec_ok s' /\ recorded pattern_index (root_leaves t) s s' /\ ~ ambiguous q /\
    (forall l m, In l (root_leaves t) -> ~ bad_ref s l m)
  | PErr c m =>
    (c = bad_pattern_syntax /\ syntax_flaw alnum narrow is_deleg x m) \/
    (exists t, pattern_means alnum narrow is_deleg x t /\
      ((c = bad_pattern_syntax /\ forall f, flaw_seq m (elements f t)) \/
       (c = bad_option_ref /\ exists l, In l (root_leaves t) /\ bad_ref s l m)))
  | PBad => False
  end.
Proof.
  intros Lok.
  assert (Rec : forall nodes i t, pattern_means alnum narrow is_deleg x t -> rep_root nodes i t -> (forall l, In l (root_leaves t) -> leaf_ok l) ->
    exists fuel0, forall st s pattern_index fuel, spec_ok s -> fuel0 <= fuel ->
    match record nodes pattern_index fuel i st s with
    | POk (st', s', k) =>
      exists t, pattern_means alnum narrow is_deleg x t /\
      let q := elements (sym_of s') t in
      full_seq st' k q /\ numbered q /\ extends st st' /\ spec_ok s' /\ recorded pattern_index (root_leaves t) s s' /\ ~ ambiguous q /\
      (forall l m, In l (root_leaves t) -> ~ bad_ref s l m)
    | PErr c m =>
      (c = bad_pattern_syntax /\ syntax_flaw alnum narrow is_deleg x m) \/
      (exists t, pattern_means alnum narrow is_deleg x t /\
        ((c = bad_pattern_syntax /\ forall f, flaw_seq m (elements f t)) \/
         (c = bad_option_ref /\ exists l, In l (root_leaves t) /\ bad_ref s l m)))
    | PBad => False
    end).
  { intros nodes i t M R L. destruct (record_exact nodes i t R L) as (f0 & F). exists f0. intros st s pattern_index fuel Ok Hf. specialize (F pattern_index st s fuel Ok Hf).
    destruct (record nodes pattern_index fuel i st s) as [[[st' s'] k]|c m|]; [| |easy].
    - exists t. split; [exact M|]. destruct F as (F1 & F2 & F3 & F4 & F5 & F6 & F7). cbv zeta.
      split; [easy|]. split; [easy|]. split; [easy|]. split; [easy|]. split; [easy|]. split; [|easy].
      intros Amb. apply (ambiguity_exact _ F2) in Amb. destruct Amb as (m & Fm). now apply (F6 m).
    - right. now exists t. }
  pose proof (reset_result alnum narrow bad_pattern_syntax Lok x) as R. unfold parse_pattern.
  destruct (reset alnum narrow bad_pattern_syntax x) as [[z b]|c m|] eqn:E; cbn [pbind]; [| |easy].
  - destruct R as (N & Sl & Sz & X & B). destruct b.
    + assert (Nx : ~ lexes alnum narrow x []) by (intros H; apply B in H; discriminate).
      destruct (parse_result alnum narrow bad_pattern_syntax Lok x z _ E (le_n _)) as (P & Pf).
      set (f0 := 8 * length x + 8) in *. destruct (parse alnum narrow bad_pattern_syntax f0 z) as [[[z' i] p]|c m|] eqn:Ep; [| |easy].
      * destruct P as ((ts & l & A & G & Rt & Sl' & Pr) & U & J).
        destruct p as [|[|p]].
        -- exists f0. intros st s pattern_index fuel Ok Hf. rewrite Pf by easy. cbn. left. split; [easy|]. left. split; [easy|]. exists ts, l. easy.
        -- exists f0. intros st s pattern_index fuel Ok Hf. rewrite Pf by easy. cbn. left. split; [easy|]. right. left. split; [easy|]. cbn in Pr.
           destruct l as [|t [|]]; try discriminate. exists ts, t. split; [easy|]. split; [now apply g_seq_single|].
           intros t' Gt. specialize (J ts t' A Gt). lia.
        -- destruct Pr as (t & -> & Gj). cbn [existsb] in Sl'. rewrite orb_false_r in Sl'.
           destruct (has_slot t && is_deleg) eqn:Es.
           ++ exists f0. intros st s pattern_index fuel Ok Hf. rewrite Pf by easy. cbn [pbind Nat.eqb]. rewrite Sl', Es. cbn. left. split; [easy|]. right. right. left.
              apply andb_prop in Es. split; [easy|]. split; [easy|]. now exists ts, t.
           ++ destruct (Rec (z_nodes z') (Some i) (Some t)) as (f1 & F).
              ** apply means_tree with (ts := ts); auto. now rewrite andb_comm.
              ** cbn. inversion Rt; subst; [easy|]. destruct l as [|? [|]]; try discriminate. now apply rep_top_nonempty in H1.
              ** cbn. apply Forall_forall. apply (proj1 (proj2 (proj2 grammar_ok)) ts t Gj). now apply lexes_ok in A.
              ** exists (f0 + f1). intros st s pattern_index fuel Ok Hf. rewrite Pf by lia. cbn [pbind Nat.eqb]. rewrite Sl', Es. cbn [pbind]. apply F; [exact Ok|lia].
      * exists f0. intros st s pattern_index fuel Ok Hf. rewrite Pf by easy. cbn. left. destruct P as (-> & P). split; [easy|]. right. right. right. now split.
    + destruct (Rec [] None None) as (f1 & F); [constructor; now apply B|easy|easy|].
      exists f1. intros st s pattern_index fuel Ok Hf. cbn [pbind]. rewrite N. now apply F.
  - exists 0. intros st s pattern_index fuel Ok _. left. destruct R as (-> & R). split; [easy|]. right. right. right. split; [apply R|]. intros ts l A. now apply R in A.
Qed.
Print Assumptions parse_pattern_exact.

(* Option forms *)
Lemma get_forms_result nodes i l : rep_top nodes i l -> forall fuel buf, length l <= fuel ->
  exists b ok, get_forms nodes fuel i buf = POk (b, ok) /\
    (ok = true -> exists fs, b = buf ++ fs /\ Forall2 form_leaf l fs) /\ (ok = false -> forall fs, ~ Forall2 form_leaf l fs).
Proof.
  assert (One : forall i t fuel buf, rep_node nodes i t -> 1 <= fuel ->
    exists b ok, get_forms nodes fuel i buf = POk (b, ok) /\ (ok = true -> exists f, b = buf ++ [f] /\ form_leaf t f) /\ (ok = false -> forall f, ~ form_leaf t f)).
  { intros j t [|fuel] buf R Hf; [lia|]. cbn [get_forms].
    destruct R as [i0 lf r1 r2 En|i0 j0 r x a En|i0 j0 r x a En|i0 j0 k0 x a b En|i0 j0 k0 x a b En]; rewrite En; cbn [pget pbind nd_type].
    - destruct lf as [y|y|y|y]; cbn [leaf_type nd_lexeme leaf_lexeme];
        [ exists buf, false | exists (buf ++ [Oform false y]), true | exists (buf ++ [Oform true y]), true | exists buf, false ];
        (split; [easy|]; split; [intros Ht|intros Ht]); try discriminate.
      + intros [[|] z]; discriminate.
      + now exists (Oform false y).
      + now exists (Oform true y).
      + intros [[|] z]; discriminate.
    - exists buf, false. split; [easy|]. split; [discriminate|]. intros _ [[|] z]; discriminate.
    - exists buf, false. split; [easy|]. split; [discriminate|]. intros _ [[|] z]; discriminate.
    - exists buf, false. split; [easy|]. split; [discriminate|]. intros _ [[|] z]; discriminate.
    - exists buf, false. split; [easy|]. split; [discriminate|]. intros _ [[|] z]; discriminate. }
  induction 1 as [i t R|i j k x l t En Rl IH R]; intros fuel buf Hf.
  - destruct (One i t fuel buf R Hf) as (b & ok & A & B & C). exists b, ok. split; [exact A|]. split.
    + intros Ht. destruct (B Ht) as (f & -> & F). exists [f]. split; [easy|]. now constructor.
    + intros Hn fs F. inversion F; subst. now apply (C eq_refl) in H1.
  - rewrite app_length in Hf. cbn in Hf. destruct fuel as [|fuel]; [lia|]. cbn [get_forms]. rewrite En. cbn [pget pbind nd_type nd_left nd_right].
    destruct (IH fuel buf ltac:(lia)) as (b & ok & A & B & C). rewrite A. cbn [pbind]. destruct ok.
    + destruct (B eq_refl) as (fs & -> & F). assert (1 <= fuel). { pose proof (rep_top_nonempty _ _ _ Rl). destruct l; [easy|]. cbn in Hf. lia. }
      destruct (One k t fuel (buf ++ fs) R H) as (b & ok & A' & B' & C'). exists b, ok. split; [exact A'|]. split.
      * intros Ht. destruct (B' Ht) as (f & -> & Fo). exists (fs ++ [f]). split; [now rewrite app_assoc|]. apply Forall2_app; [easy|]. now constructor.
      * intros Hn gs Fg. apply Forall2_app_inv_l in Fg. destruct Fg as (g1 & g2 & _ & G2 & _). inversion G2; subst. now apply (C' eq_refl) in H2.
    + exists b, false. split; [easy|]. split; [discriminate|]. intros _ gs Fg. apply Forall2_app_inv_l in Fg. destruct Fg as (g1 & g2 & G1 & _). now apply (C eq_refl g1).
Qed.

Lemma forms_unique l : forall fs fs', Forall2 form_leaf l fs -> Forall2 form_leaf l fs' -> fs = fs'.
Proof.
  induction l as [|t l IH]; intros fs fs' F F'; inversion F; inversion F'; subst; [easy|]. f_equal; [|now apply IH].
  unfold form_leaf in *. destruct y as [[|] y], y0 as [[|] z]; cbn in *; congruence.
Qed.
Theorem forms_mean_unique alnum narrow x fs fs' : locale_ok alnum narrow -> forms_mean alnum narrow x fs -> forms_mean alnum narrow x fs' -> fs = fs'.
Proof.
  intros Lok. destruct 1 as [A|ts l fs A G F]; destruct 1 as [A'|ts' l' fs' A' G' F'].
  - easy.
  - assert (X : ts' = []) by (eapply tokens_unique; [exact Lok|exact A'|exact A]). subst ts'. now apply g_seq_nonempty in G'.
  - assert (X : ts = []) by (eapply tokens_unique; [exact Lok|exact A|exact A']). subst ts. now apply g_seq_nonempty in G.
  - destruct (parse_unique alnum narrow Lok x ts ts' l l' A A' G G') as (_ & <-). eapply forms_unique; eassumption.
Qed.

(* The forms are added to the specification, in order, and the range is that of them. *)
Theorem parse_option_forms_exact alnum narrow x : locale_ok alnum narrow ->
  exists fuel0, forall s fuel, fuel0 <= fuel ->
  match parse_option_forms alnum narrow fuel x s with
  | POk (s', (offset, size)) =>
    exists fs, forms_mean alnum narrow x fs /\ k_forms s' = k_forms s ++ fs /\ offset = length (k_forms s) /\ size = length fs /\
    k_keywords s' = k_keywords s /\ k_protos s' = k_protos s /\ k_patterns s' = k_patterns s /\ k_options s' = k_options s /\
    k_keyword_map s' = k_keyword_map s /\ k_short_map s' = k_short_map s /\ k_long_map s' = k_long_map s
  | PErr c m => c = bad_option_forms_syntax /\ forall fs, ~ forms_mean alnum narrow x fs
  | PBad => False
  end.
Proof.
  intros Lok. pose proof (reset_result alnum narrow bad_option_forms_syntax Lok x) as R. unfold parse_option_forms.
  destruct (reset alnum narrow bad_option_forms_syntax x) as [[z b]|c m|] eqn:E; cbn [pbind]; [| |easy].
  - destruct R as (N & Sl & Sz & X & B). destruct b.
    + assert (Nx : ~ lexes alnum narrow x []) by (intros H; apply B in H; discriminate).
      destruct (parse_result alnum narrow bad_option_forms_syntax Lok x z _ E (le_n _)) as (P & Pf).
      set (f0 := 8 * length x + 8) in *. destruct (parse alnum narrow bad_option_forms_syntax f0 z) as [[[z' i] p]|c m|] eqn:Ep; [| |easy].
      * destruct P as ((ts & l & A & G & Rt & Sl' & Pr) & U & J). exists (f0 + length l). intros s fuel Hf. rewrite Pf by lia. cbn [pbind].
        destruct (get_forms_result _ _ _ Rt fuel [] ltac:(lia)) as (b & ok & A' & B' & C'). rewrite A'. cbn [pbind]. destruct ok; cbn [pbind].
        -- destruct (B' eq_refl) as (fs & -> & F). exists fs. split; [now apply fmean_forms with (ts := ts) (l := l)|]. repeat split.
        -- split; [easy|]. intros fs F. destruct F as [A''|ts' l' fs A'' G'' F]; [easy|].
           destruct (parse_unique alnum narrow Lok x ts ts' l l' A A'' G G'') as (_ & <-). now apply (C' eq_refl fs).
      * exists f0. intros s fuel Hf. rewrite Pf by easy. cbn. destruct P as (-> & P). split; [easy|].
        intros fs F. destruct F as [A''|ts' l' fs A'' G'' F]; [easy|]. now apply (P ts' l').
    + exists 0. intros s fuel _. cbn. exists []. split; [constructor; now apply B|]. repeat split.
  - exists 0. intros s fuel _. destruct R as (-> & R). split; [easy|]. intros fs F. destruct F as [A|ts l fs A]; now apply R in A.
Qed.
Print Assumptions parse_option_forms_exact.

(* Option arguments *)
Lemma get_arg_result nodes i l : rep_top nodes i l -> forall fuel, 2 <= fuel ->
  match get_arg nodes fuel i false with
  | POk (Some a) => exists y, (l = [PLeaf (LSlot y)] /\ a = Argspec true true) \/ (l = [POpt (PLeaf (LSlot y))] /\ a = Argspec true false)
  | POk None => forall y, l <> [PLeaf (LSlot y)] /\ l <> [POpt (PLeaf (LSlot y))]
  | _ => False
  end.
Proof.
  intros R [|[|fuel]] Hf; try lia. remember (S fuel) as g. destruct R as [i t R|i j k x l t En Rl R]; cbn [get_arg].
  - destruct R as [i0 lf r1 r2 En|i0 j0 r x a En R|i0 j0 r x a En|i0 j0 k0 x a b En|i0 j0 k0 x a b En]; rewrite En; cbn [pget pbind nd_type]; try (intros y; split; congruence).
    + destruct lf as [y|y|y|y]; cbn [leaf_type]; try (intros z; split; congruence). exists y. now left.
    + cbn [negb nd_left]. subst g. cbn [get_arg].
      destruct R as [i1 lf r1 r2 E1|i1 j1 r1 x1 a E1 R1|i1 j1 r1 x1 a E1|i1 j1 k1 x1 a b E1|i1 j1 k1 x1 a b E1]; rewrite E1; cbn [pget pbind nd_type negb]; try (intros y; split; congruence).
      destruct lf as [y|y|y|y]; cbn [leaf_type]; try (intros z; split; congruence). exists y. now right.
  - rewrite En. cbn [pget pbind nd_type]. apply rep_top_nonempty in Rl. destruct l as [|a [|b l]]; [easy| |]; intros y; split; discriminate.
Qed.

Theorem arg_means_unique alnum narrow x a a' : locale_ok alnum narrow -> arg_means alnum narrow x a -> arg_means alnum narrow x a' -> a = a'.
Proof.
  intros Lok. destruct 1 as [A|ts y A G|ts y A G]; destruct 1 as [A'|ts' y' A' G'|ts' y' A' G']; try easy;
    try (assert (X : ts' = []) by (eapply tokens_unique; [exact Lok|exact A'|exact A]); subst ts'; now apply grammar_starts in G');
    try (assert (X : ts = []) by (eapply tokens_unique; [exact Lok|exact A|exact A']); subst ts; now apply grammar_starts in G);
    apply g_seq_one in G, G'; destruct (parse_unique alnum narrow Lok x ts ts' _ _ A A' G G') as (_ & X); discriminate.
Qed.

Theorem parse_option_arg_exact alnum narrow x : locale_ok alnum narrow ->
  exists fuel0, forall fuel, fuel0 <= fuel ->
  match parse_option_arg alnum narrow fuel x with
  | POk a => arg_means alnum narrow x a
  | PErr c m => c = bad_option_arg_syntax /\ forall a, ~ arg_means alnum narrow x a
  | PBad => False
  end.
Proof.
  intros Lok. pose proof (reset_result alnum narrow bad_option_arg_syntax Lok x) as R. unfold parse_option_arg.
  destruct (reset alnum narrow bad_option_arg_syntax x) as [[z b]|c m|] eqn:E; cbn [pbind]; [| |easy].
  - destruct R as (N & Sl & Sz & X & B). destruct b.
    + assert (Nx : ~ lexes alnum narrow x []) by (intros H; apply B in H; discriminate).
      destruct (parse_result alnum narrow bad_option_arg_syntax Lok x z _ E (le_n _)) as (P & Pf).
      set (f0 := 8 * length x + 8) in *. destruct (parse alnum narrow bad_option_arg_syntax f0 z) as [[[z' i] p]|c m|] eqn:Ep; [| |easy].
      * destruct P as ((ts & l & A & G & Rt & Sl' & Pr) & U & J). exists f0. intros fuel Hf. rewrite Pf by lia. cbn [pbind].
        pose proof (get_arg_result _ _ _ Rt fuel ltac:(lia)) as Ra. destruct (get_arg _ fuel i false) as [[a|]|c m|]; cbn [pbind]; try easy.
        -- destruct Ra as (y & [(-> & ->)|(-> & ->)]); apply g_seq_single in G; [now apply amean_required with (ts := ts) (y := y)|now apply amean_optional with (ts := ts) (y := y)].
        -- split; [easy|]. intros a F. destruct F as [A'|ts' y A' G'|ts' y A' G']; [easy| |];
             apply g_seq_one in G'; destruct (parse_unique alnum narrow Lok x ts ts' _ _ A A' G G') as (_ & Xl); now destruct (Ra y).
      * exists f0. intros fuel Hf. rewrite Pf by easy. cbn. destruct P as (-> & P). split; [easy|].
        intros a F. destruct F as [A'|ts' y A' G'|ts' y A' G']; [easy| |]; apply g_seq_one in G'; exact (P _ _ A' G').
    + exists 0. intros fuel _. cbn. constructor. now apply B.
  - exists 0. intros fuel _. destruct R as (-> & R). split; [easy|]. intros a F. destruct F as [A'|ts' y A' G'|ts' y A' G']; now apply R in A'.
Qed.
Print Assumptions parse_option_arg_exact.

(* ASCII *)
Definition ascii_alnum (c : nat) : bool := ((48 <=? c) && (c <=? 57)) || ((65 <=? c) && (c <=? 90)) || ((97 <=? c) && (c <=? 122)).
Definition ascii_narrow (c : nat) : nat := if c <? 128 then c else 0.
Example ascii_ok : locale_ok ascii_alnum ascii_narrow.
Proof.
  split; [|easy]. intros c k H. unfold ascii_narrow. destruct (Nat.ltb_spec c 128); [easy|].
  cbn in H. split; [intros <-|intros ->]; repeat (destruct H as [H|H]; [discriminate H || (subst; cbv in *; lia)|]); easy.
Qed.

(* foo [-x <a>] (<b> | --bar...) *)
Definition ex_text : text :=
  [102; 111; 111; 32; 91; 45; 120; 32; 60; 97; 62; 93; 32; 40; 60; 98; 62; 32; 124; 32; 45; 45; 98; 97; 114; 46; 46; 46; 41].
Definition ex_tokens : list token :=
  [ Token t_keyword [102; 111; 111] false; Token t_left_sq_bracket [91] true; Token t_short_option [45; 120] false;
    Token t_value_slot [60; 97; 62] true; Token t_right_sq_bracket [93] false; Token t_left_parenthesis [40] true;
    Token t_value_slot [60; 98; 62] false; Token t_vertical_bar [124] true; Token t_long_option [45; 45; 98; 97; 114] true;
    Token t_ellipsis [46; 46; 46] false; Token t_right_parenthesis [41] false ].
Example parse_pattern_ex : pattern_means ascii_alnum ascii_narrow false ex_text (Some ex_tree) /\
  match parse_pattern ascii_alnum ascii_narrow 300 ex_text (Structure [] [] [] []) ex_spec 3 false, record ex_nodes 3 300 (Some 10) (Structure [] [] [] []) ex_spec with
  | POk a, POk b => a = b
  | _, _ => False
  end.
Proof.
  split; [|now vm_compute].
  assert (H : lexes ascii_alnum ascii_narrow ex_text ex_tokens /\ g_jux ex_tokens ex_tree).
  { split.
    - apply (lexes_token _ _ 0 t_keyword [102; 111; 111]); [constructor; try reflexivity; cbv; intuition lia|].
      apply (lexes_token _ _ 1 t_left_sq_bracket [91]); [constructor|].
      apply (lexes_token _ _ 0 t_short_option [45; 120]); [constructor; discriminate|].
      apply (lexes_token _ _ 1 t_value_slot [60; 97; 62]); [apply (lx_slot _ _ [97]); cbv; intuition lia|].
      apply (lexes_token _ _ 0 t_right_sq_bracket [93]); [constructor|].
      apply (lexes_token _ _ 1 t_left_parenthesis [40]); [constructor|].
      apply (lexes_token _ _ 0 t_value_slot [60; 98; 62]); [apply (lx_slot _ _ [98]); cbv; intuition lia|].
      apply (lexes_token _ _ 1 t_vertical_bar [124]); [constructor|].
      apply (lexes_token _ _ 1 t_long_option [45; 45; 98; 97; 114]); [constructor; reflexivity|].
      apply (lexes_token _ _ 0 t_ellipsis [46; 46; 46]); [constructor|].
      apply (lexes_token _ _ 0 t_right_parenthesis [41]); [constructor|].
      apply (lexes_end _ _ 0).
    - unfold ex_tokens, ex_tree.
      apply (g_jux_more [_; _; _; _; _] _ _ [_; _; _; _; _]).
      + apply (g_jux_more [_] _ _ [_; _; _]); [do 2 constructor; apply g_keyword|reflexivity|]. constructor.
        apply (g_brackets _ _ [_; _]); [reflexivity|reflexivity|]. constructor. apply (g_jux_more [_] _ _ []); [do 2 constructor; apply g_short|reflexivity|constructor; apply g_slot].
      + reflexivity.
      + constructor. apply (g_parens _ _ [_; _; _; _]); [reflexivity|reflexivity|].
        apply (g_alt_more [_] _ _ [_; _]); [do 3 constructor; apply g_slot|reflexivity|]. constructor. apply (g_rep_more [_]); [reflexivity|]. constructor. apply g_long. }
  destruct H as (H & G). now apply means_tree with (ts := ex_tokens).
Qed.

(* -x, --bar *)
Example parse_option_forms_ex :
  forms_mean ascii_alnum ascii_narrow [45; 120; 44; 32; 45; 45; 98; 97; 114] [Oform false [45; 120]; Oform true [45; 45; 98; 97; 114]].
Proof.
  apply fmean_forms with (ts := [Token t_short_option [45; 120] false; Token t_comma [44] false; Token t_long_option [45; 45; 98; 97; 114] true])
    (l := [PLeaf (LShort [45; 120]); PLeaf (LLong [45; 45; 98; 97; 114])]).
  - apply (lexes_token _ _ 0 t_short_option [45; 120]); [constructor; discriminate|].
    apply (lexes_token _ _ 0 t_comma [44]); [constructor|].
    apply (lexes_token _ _ 1 t_long_option [45; 45; 98; 97; 114]); [constructor; reflexivity|].
    apply (lexes_end _ _ 0).
  - apply (g_seq_more [_] [_] _ [_]); [do 4 constructor; apply g_short|reflexivity|do 3 constructor; apply g_long].
  - repeat constructor.
Qed.

(* [<a>] *)
Example parse_option_arg_ex : arg_means ascii_alnum ascii_narrow [91; 60; 97; 62; 93] (Argspec true false).
Proof.
  apply amean_optional with (ts := [Token t_left_sq_bracket [91] false; Token t_value_slot [60; 97; 62] false; Token t_right_sq_bracket [93] false]) (y := [60; 97; 62]).
  - apply (lexes_token _ _ 0 t_left_sq_bracket [91]); [constructor|].
    apply (lexes_token _ _ 0 t_value_slot [60; 97; 62]); [apply (lx_slot _ _ [97]); cbv; intuition lia|].
    apply (lexes_token _ _ 0 t_right_sq_bracket [93]); [constructor|].
    apply (lexes_end _ _ 0).
  - do 3 constructor. apply (g_brackets _ _ [_]); [reflexivity|reflexivity|]. do 3 constructor. apply g_slot.
Qed.
