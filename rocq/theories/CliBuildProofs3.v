(* Construction of the command-line processor: the patterns, and the whole *)
From Coq Require Import List Arith Bool ZArith Lia.
From Verif Require Import CliPatternModel CliPatternSpec CliSpecModel CliRecorderModel CliRecorderSpec CliSpecProofs CliAmbigProofs CliValueProofs CliRecorderProofs CliRecorderProofs2
  CliRecorderProofs3 CliRecorderProps CliParserModel CliParserSpec CliParserProofs3 CliParserProps CliOptionSpec CliOptionProps CliBuildModel CliBuildSpec CliBuildProofs CliBuildProofs2.
Import ListNotations.

Lemma forall2_nth {A B C} (P : A -> B * C -> Prop) os ds ms j o : Forall2 P os (combine ds ms) -> nth_error os j = Some o ->
  exists d m, nth_error ds j = Some d /\ nth_error ms j = Some m /\ P o (d, m).
Proof.
  revert ds ms j. induction os as [|x os IH]; intros ds ms j F E; [now destruct j|]. destruct ds as [|d ds], ms as [|m ms]; cbn in F; inversion F; subst.
  destruct j as [|j]; cbn in *; [injection E as ->; now exists d, m|now apply IH with (j := j)].
Qed.
Lemma forall2_nth_r {A B C} (P : A -> B * C -> Prop) os ds ms j d m : Forall2 P os (combine ds ms) -> nth_error ds j = Some d -> nth_error ms j = Some m ->
  exists o, nth_error os j = Some o /\ P o (d, m).
Proof.
  revert ds ms j. induction os as [|x os IH]; intros ds ms j F E E'; destruct ds as [|d' ds], ms as [|m' ms]; cbn in F; inversion F; subst; try (now destruct j).
  destruct j as [|j]; cbn in *; [injection E as ->; injection E' as ->; now exists x|now apply IH with (j := j) in H4].
Qed.

Lemma land_bit attr k : (0 <= k)%Z -> (Z.land attr (2 ^ k) <> 0 <-> Z.testbit attr k = true)%Z.
Proof.
  intros Hk. pose proof (has_attr_bit attr k Hk) as H. unfold has_attr in H. rewrite <- H. destruct (Z.eqb_spec (Z.land attr (2 ^ k)) 0); cbn; intuition congruence.
Qed.

Lemma bad_ref_iff ds ms ts s l m : registered ds ms ts s -> leaf_ok l -> (bad_ref s l m <-> ref_flaw ds ms l m).
Proof.
  intros (_ & R2 & R3 & _ & R5 & _ & R7 & _) Lk. split.
  - intros (i & p & j & o & E & Ep & Ej & Eo & B). pose proof (leaf_name _ _ _ Lk E) as N.
    destruct (forall2_nth _ _ _ _ _ _ R2 Eo) as (d & [fs a] & Ed & Em & A1 & A2 & _). cbn in A1, A2. exists j, d, fs, a.
    split; [apply (R7 l i j N E); unfold proto_at; now rewrite Ep|]. split; [exact Ed|]. split; [exact Em|].
    destruct B as [(-> & B)|[(-> & B)|(-> & B)]]; [left; split; congruence|right; left|right; right]; (split; [easy|]); rewrite <- A2.
    + apply (land_bit _ 0); [lia|exact B].
    + apply (land_bit _ 1); [lia|exact B].
  - intros (j & d & fs & a & F & Ed & Em & B). destruct (forall2_nth_r _ _ _ _ _ _ _ R2 Ed Em) as (o & Eo & A1 & A2 & _). cbn in A1, A2.
    assert (N : option_name l). { destruct F as (fs' & a' & g & _ & _ & Sf). destruct l; cbn in *; try easy; destruct (opt_form g); easy. }
    assert (X : sym_in s l <> None) by (apply R5; [exact N|left; now exists j]). destruct (sym_in s l) as [y|] eqn:E; [|easy]. destruct (option_name_sym _ _ _ N E) as (i & ->).
    pose proof (proj2 (R7 l i j N E) F) as P. unfold proto_at in P. destruct (nth_error (k_protos s) i) as [p|] eqn:Ep; [|discriminate].
    exists i, p, j, o. split; [exact E|]. split; [exact Ep|]. split; [exact P|]. split; [exact Eo|]. unfold bad_option. rewrite A1, A2.
    destruct B as [(-> & B)|[(-> & B)|(-> & B)]]; [left; auto|right; left|right; right]; (split; [easy|]).
    + apply (land_bit _ 0); [lia|exact B].
    + apply (land_bit _ 1); [lia|exact B].
Qed.

Lemma pattern_bits attr : (Z.land attr (Z.lnot completing) = 0 <-> forall n, 1 <= n -> Z.testbit attr n = false)%Z.
Proof.
  assert (B : forall n, (0 <= n -> Z.testbit 1 n = (n =? 0))%Z). { intros n Hn. rewrite Z.eqb_sym. apply (Z.pow2_bits_eqb 0 n). lia. }
  split.
  - intros H n Hn. assert (X : Z.testbit (Z.land attr (Z.lnot completing)) n = false) by (rewrite H; apply Z.bits_0).
    rewrite Z.land_spec, Z.lnot_spec in X by lia. unfold completing in X. rewrite B in X by lia. replace (n =? 0)%Z with false in X by (symmetry; apply Z.eqb_neq; lia).
    cbn in X. now rewrite andb_true_r in X.
  - intros H. apply Z.bits_inj'. intros n Hn. rewrite Z.bits_0, Z.land_spec, Z.lnot_spec by easy. unfold completing. rewrite B by easy.
    destruct (Z.eqb_spec n 0); [apply andb_false_r|]. rewrite H by lia. reflexivity.
Qed.
Lemma pattern_bits_not attr : (Z.land attr (Z.lnot completing) <> 0 -> exists n, 1 <= n /\ Z.testbit attr n = true)%Z.
Proof.
  intros H. set (x := Z.land attr (Z.lnot completing)) in *. assert (exists n, (0 <= n)%Z /\ Z.testbit x n = true) as (n & Hn & En).
  { destruct (Z_lt_le_dec x 0) as [Hx|Hx].
    - destruct (Z.bits_iff_neg_ex x) as [E _]. destruct (E Hx) as (k & Ek). exists (Z.max 0 k + 1)%Z. split; [lia|]. apply Ek. lia.
    - exists (Z.log2 x). split; [apply Z.log2_nonneg|]. apply Z.bit_log2. lia. }
  exists n. unfold x in En. rewrite Z.land_spec, Z.lnot_spec in En by easy. apply andb_prop in En. destruct En as (E1 & E2). split; [|exact E1].
  destruct (Z_lt_le_dec n 1); [|easy]. assert (n = 0)%Z as -> by lia. discriminate.
Qed.

Lemma ambiguous_any f g t : ~ ambiguous (elements f t) -> ~ ambiguous (elements g t).
Proof.
  assert (N : forall f, numbered (elements f t)) by (intros h; destruct t; [apply (shape_from h p 0)|reflexivity]).
  rewrite <- !ambiguous_iff by apply N. intros H (m & Hm). apply H.
  destruct (ok_q (elements f t)) eqn:O.
  - assert (O' : ok_q (elements g t) = true) by (destruct t as [t|]; [rewrite <- O; apply shape_bool|reflexivity]). exfalso. apply (proj1 (ok_iff _ (N g)) O' m Hm).
  - now apply (proj1 (proj2 not_ok_flaw)).
Qed.

Lemma means_ok alnum narrow dg x t : pattern_means alnum narrow dg x t -> forall l, In l (tree_leaves t) -> leaf_ok l.
Proof.
  destruct 1 as [A|ts t A G D]; [easy|]. apply Forall_forall. apply lexes_ok in A. cbn [tree_leaves]. exact (proj1 (proj2 (proj2 grammar_ok)) ts t G A).
Qed.

Section Patterns.
  Variable alnum : nat -> bool.
  Variable narrow : nat -> nat.
  Hypothesis Lok : locale_ok alnum narrow.

  (* what there is after some patterns *)
  Record pats_in (ds : list option_decl) (ms : list meaning) (l : list pattern_decl) (ts : list (option ptree)) (st : structure) (s : spec) (ps : list (nat * bool)) : Prop := {
    pi_ok : spec_ok s;
    pi_reg : registered ds ms ts s;
    pi_mean : Forall2 (pattern_mean alnum narrow ds ms) l ts;
    pi_flags : map snd ps = map pd_deleg l;
    pi_full : Forall2 (full_seq st) (map fst ps) (map (elements (sym_of s)) ts)
  }.
  Lemma pi_leaves ds ms l ts st s ps : pats_in ds ms l ts st s ps -> forall x, In x (flat_map tree_leaves ts) -> leaf_ok x.
  Proof.
    intros P x H. pose proof (pi_mean _ _ _ _ _ _ _ P) as F. clear P. induction F as [|d t l ts M F IH]; [easy|]. cbn in H. apply in_app_iff in H as [H|H]; [|now apply IH].
    eapply means_ok; [apply M|exact H].
  Qed.

  Lemma sym_of_slots s : slots_kept (sym_of s).
  Proof.
    intros [t|t|t|t]; unfold sym_of, sym_in; [destruct (find_keyword s t)|destruct (nth_error t 1) as [c|]; [destruct (find_short s c)|]|destruct (find_long s (skipn 2 t))|]; reflexivity.
  Qed.

  Lemma pattern_step d : exists fuel0, forall ds ms fuel l ts st s ps, fuel0 <= fuel -> pats_in ds ms l ts st s ps ->
    match (let* (st, s, k) := parse_pattern alnum narrow fuel (pd_pattern d) st s (length l) (pd_deleg d) in
           let* s := add_pattern s (pd_attr d) k (pd_deleg d) (pd_fits d) st in POk (st, s, k)) with
    | POk (st', s', k) => exists t, pats_in ds ms (l ++ [d]) (ts ++ [t]) st' s' (ps ++ [(k, pd_deleg d)])
    | PErr c m => pattern_wrong alnum narrow ds ms d c m
    | PBad => False
    end.
  Proof.
    destruct (parse_pattern_exact alnum narrow (pd_pattern d) (pd_deleg d) Lok) as (f0 & F). exists f0. intros ds ms fuel l ts st s ps Hf P.
    pose proof (pi_leaves _ _ _ _ _ _ _ P) as Lv. destruct P as [Ok Rg Mn Fl Fu]. specialize (F st s (length l) fuel Ok Hf).
    destruct (parse_pattern alnum narrow fuel (pd_pattern d) st s (length l) (pd_deleg d)) as [[[st1 s1] k]|c m|]; cbn [pbind]; [| |easy].
    - destruct F as (t & M & F1 & F2 & F3 & F4 & F5 & F6 & F7). pose proof (means_ok _ _ _ _ _ M) as Lt. unfold add_pattern.
      destruct (Z.eqb_spec (Z.land (pd_attr d) (Z.lnot completing)) 0) as [Ea|Ea]; cbn [negb].
      2: { cbn [pbind]. right. exists t. split; [exact M|]. right. right. left. split; [easy|]. split; [easy|]. now apply pattern_bits_not. }
      destruct (negb (pd_deleg d) && negb (pd_fits d st1 k)) eqn:Ef; cbn [pbind].
      { apply andb_prop in Ef as [Ef1 Ef2]. apply negb_true_iff in Ef1, Ef2. right. exists t. split; [exact M|]. do 3 right. split; [easy|]. split; [easy|]. split; [easy|].
        exists st1, k, (sym_of s1). split; [apply sym_of_slots|now split]. }
      exists t.
      assert (Rg' : registered ds ms (ts ++ [t]) (count_pattern s1)) by (eapply (registered_more ds ms ts t s s1); eassumption).
      assert (Sy : forall q, elements (sym_of (count_pattern s1)) q = elements (sym_of s1) q).
      { reflexivity. }
      split.
      + exact F4.
      + exact Rg'.
      + apply Forall2_app; [exact Mn|]. constructor; [|constructor]. split; [exact M|]. split; [intros f; eapply ambiguous_any; exact F6|].
        split; [intros x m Hx X; apply (F7 x m Hx); now apply (bad_ref_iff _ _ _ _ _ _ Rg (Lt x Hx))|]. split; [now apply pattern_bits|].
        destruct (pd_deleg d); [now left|]. right. exists st1, k, (sym_of s1). split; [apply sym_of_slots|]. split; [exact F1|]. cbn in Ef. now apply negb_false_iff in Ef.
      + rewrite !map_app, Fl. reflexivity.
      + rewrite !map_app. apply Forall2_app.
        * assert (E : map (elements (sym_of (count_pattern s1))) ts = map (elements (sym_of s)) ts).
          { apply map_ext_in. intros q Hq. symmetry. eapply (elements_stay ds ms ts t s s1 _ Rg F5 Lv); exact Hq. }
          rewrite E. clear - Fu F3. induction Fu; constructor; [|assumption]. now apply (full_mono st st1 F3).
        * constructor; [|constructor]. rewrite Sy. exact F1.
    - destruct F as [F|(t & M & [F|(-> & x & Hx & B)])]; [now left| |]; right; exists t; (split; [exact M|]); [now left|].
      right. left. split; [easy|]. exists x. split; [exact Hx|]. apply (bad_ref_iff _ _ _ _ _ _ Rg); [|exact B]. now apply (means_ok _ _ _ _ _ M).
  Qed.

  Lemma pi_length ds ms l ts st s ps : pats_in ds ms l ts st s ps -> k_patterns s = length l.
  Proof. intros P. rewrite (proj1 (pi_reg _ _ _ _ _ _ _ P)). pose proof (pi_mean _ _ _ _ _ _ _ P) as F. clear P. induction F; cbn; congruence. Qed.

  Lemma build_patterns_exact l' : exists fuel0, forall ds ms fuel l ts st s ps, fuel0 <= fuel -> pats_in ds ms l ts st s ps ->
    match build_patterns alnum narrow fuel st s ps (length l) l' with
    | POk (st', s', ps') => exists ts', pats_in ds ms (l ++ l') ts' st' s' ps'
    | PErr c m => exists l1 d l2 ts', l' = l1 ++ d :: l2 /\ Forall2 (pattern_mean alnum narrow ds ms) (l ++ l1) ts' /\ pattern_wrong alnum narrow ds ms d c m
    | PBad => False
    end.
  Proof.
    induction l' as [|d l' (f2 & IH)].
    - exists 0. intros ds ms fuel l ts st s ps _ P. cbn [build_patterns]. exists ts. now rewrite app_nil_r.
    - destruct (pattern_step d) as (f1 & F). exists (f1 + f2). intros ds ms fuel l ts st s ps Hf P. specialize (F ds ms fuel l ts st s ps ltac:(lia) P). cbn [build_patterns].
      rewrite (pi_length _ _ _ _ _ _ _ P), Nat.eqb_refl. cbn [negb].
      assert (Er : forall c m, pattern_wrong alnum narrow ds ms d c m ->
        exists l1 d0 l2 ts', d :: l' = l1 ++ d0 :: l2 /\ Forall2 (pattern_mean alnum narrow ds ms) (l ++ l1) ts' /\ pattern_wrong alnum narrow ds ms d0 c m).
      { intros c m W. exists [], d, l', ts. rewrite app_nil_r. split; [easy|]. split; [exact (pi_mean _ _ _ _ _ _ _ P)|exact W]. }
      destruct (parse_pattern alnum narrow fuel (pd_pattern d) st s (length l) (pd_deleg d)) as [[[st1 s1] k]|c m|]; cbn [pbind] in *; [|now apply Er|easy].
      destruct (add_pattern s1 (pd_attr d) k (pd_deleg d) (pd_fits d) st1) as [s2|c m|]; cbn [pbind] in *; [|now apply Er|easy].
      destruct F as (t & P'). specialize (IH ds ms fuel _ _ _ _ _ ltac:(lia) P'). rewrite app_length in IH. cbn [length] in IH. rewrite Nat.add_1_r in IH.
      destruct (build_patterns alnum narrow fuel st1 s2 (ps ++ [(k, pd_deleg d)]) (S (length l)) l') as [[[st3 s3] ps3]|c m|]; [| |easy].
      + destruct IH as (ts' & I1). exists ts'. now rewrite <- app_assoc in I1.
      + destruct IH as (l1 & d' & l2 & ts' & -> & I1 & I2). exists (d :: l1), d', l2, ts'. rewrite <- app_assoc in I1. now split.
  Qed.

  Lemma empty_not_wrong ds ms c m : ~ pattern_wrong alnum narrow ds ms (Pattern_decl [] 0 false (fun _ _ => true)) c m.
  Proof.
    intros W. assert (X : lexes alnum narrow [] []) by apply (lexes_end alnum narrow 0).
    assert (M : pattern_means alnum narrow false [] None) by now constructor.
    destruct W as [(_ & W)|(t & Mt & W)]; cbn [pd_deleg pd_pattern pd_attr pd_fits] in *.
    - now apply (syntax_flaw_excludes alnum narrow false [] m Lok W None).
    - assert (t = None) as -> by (eapply pattern_means_unique; eassumption).
      destruct W as [(_ & W)|[(_ & l & [] & _)|[(_ & _ & n & Hn & W)|(_ & _ & _ & st & k & f & _ & _ & W)]]].
      + specialize (W (fun _ => dummy_symbol)). inversion W.
      + rewrite Z.testbit_0_l in W. discriminate.
      + discriminate.
  Qed.
End Patterns.
