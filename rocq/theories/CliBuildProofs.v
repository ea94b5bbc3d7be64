(* Construction of the command-line processor: the options *)
From Coq Require Import List Arith Bool ZArith Lia.
From Verif Require Import CliPatternModel CliPatternSpec CliSpecModel CliRecorderModel CliRecorderSpec CliSpecProofs CliParserModel CliParserSpec CliParserProofs3 CliParserProps
  CliOptionSpec CliOptionProps CliBuildModel CliBuildSpec.
Import ListNotations.

Lemma same_form_sym_in s l l' : same_form l l' -> sym_in s l = sym_in s l'.
Proof. destruct l as [t|t|t|t], l' as [t'|t'|t'|t']; cbn; try easy; intros E; now rewrite E. Qed.
Lemma same_form_refl l : option_name l -> same_form l l.
Proof. destruct l; cbn; easy. Qed.
Lemma same_form_symm l l' : same_form l l' -> same_form l' l.
Proof. destruct l as [t|t|t|t], l' as [t'|t'|t'|t']; cbn; try easy; intros E; now rewrite E. Qed.
Lemma same_form_trans a b c : same_form a b -> same_form b c -> same_form a c.
Proof. destruct a, b, c; cbn; try easy; congruence. Qed.
Lemma option_name_sym s l y : option_name l -> sym_in s l = Some y -> exists i, y = Psym s_proto_option i.
Proof.
  destruct l as [t|t|t|t]; cbn [option_name sym_in]; try easy; intros _.
  - destruct (nth_error t 1) as [c|]; [|easy]. destruct (find_short s c) as [i|]; [|easy]. intros [= <-]. now exists i.
  - destruct (find_long s (skipn 2 t)) as [i|]; [|easy]. intros [= <-]. now exists i.
Qed.
Lemma name_form l : option_name l -> exists f, opt_form f = l.
Proof. destruct l as [t|t|t|t]; try easy; intros _; [exists (Oform false t)|exists (Oform true t)]; reflexivity. Qed.
Lemma form_name f : leaf_ok (opt_form f) -> option_name (opt_form f).
Proof. unfold opt_form. now destruct (of_long f). Qed.

Lemma forms_ok alnum narrow x fs : forms_mean alnum narrow x fs -> forall f, In f fs -> leaf_ok (opt_form f).
Proof.
  destruct 1 as [A|ts l fs A G F]; [easy|]. apply lexes_ok in A.
  assert (H : Forall (fun t => Forall leaf_ok (leaves t)) l).
  { clear F. induction G as [w t G|w l c w' t G IH Hc G']; [constructor; [now apply grammar_ok with (w := w)|constructor]|].
    apply Forall_app in A as [A1 A2]. inversion A2; subst. apply Forall_app. split; [auto|]. constructor; [now apply grammar_ok with (w := w')|constructor]. }
  clear A G. induction F as [|t f l fs E F IH]; [easy|]. inversion H as [|? ? H1 H2]; subst. intros g [<-|Hg]; [|now apply IH].
  unfold form_leaf in E. subst t. cbn in H1. inversion H1; subst. unfold opt_form. assumption.
Qed.

Lemma combine_snoc {A B} (l : list A) (m : list B) x y : length l = length m -> combine (l ++ [x]) (m ++ [y]) = combine l m ++ [(x, y)].
Proof. revert m. induction l as [|a l IH]; intros [|b m] E; try discriminate; [easy|]. cbn. now rewrite IH by (cbn in E; lia). Qed.

Section Options.
  Variable alnum : nat -> bool.
  Variable narrow : nat -> nat.
  Hypothesis Lok : locale_ok alnum narrow.

  Definition opt_as (forms : list oform) (o : optspec) (x : option_decl * meaning) : Prop :=
    o_arg o = snd (snd x) /\ o_attr o = od_attr (fst x) /\ o_action o = od_action (fst x) /\
    firstn (snd (o_forms o)) (skipn (fst (o_forms o)) forms) = fst (snd x) /\ fst (o_forms o) + snd (o_forms o) <= length forms.
  Record opts_in (ds : list option_decl) (ms : list meaning) (s : spec) : Prop := {
    oi_open : open_spec s;
    oi_keywords : k_keywords s = [];
    oi_protos : k_protos s = map (fun j => Proto None (Some j)) (List.seq 0 (length (k_options s)));
    oi_options : Forall2 (opt_as (k_forms s)) (k_options s) (combine ds ms);
    oi_length : length ds = length ms;
    oi_syms : forall l j, option_name l -> (sym_in s l = Some (Psym s_proto_option j) <-> is_form ms l j)
  }.

  Lemma oi_count ds ms s : opts_in ds ms s -> length (k_options s) = length ms.
  Proof.
    intros O. pose proof (oi_options _ _ _ O) as F. assert (E : length (k_options s) = length (combine ds ms)) by (induction F; cbn; congruence).
    rewrite E, combine_length, (oi_length _ _ _ O). lia.
  Qed.
  Lemma protos_at s n i : k_protos s = map (fun j => Proto None (Some j)) (List.seq 0 n) -> proto_at s i = if i <? n then Proto None (Some i) else Proto None None.
  Proof.
    intros E. unfold proto_at. rewrite E, nth_error_map. destruct (Nat.ltb_spec i n).
    - rewrite (nth_error_nth' _ 0) by (rewrite seq_length; lia). rewrite seq_nth by lia. reflexivity.
    - rewrite (proj2 (nth_error_None _ _)) by (rewrite seq_length; lia). reflexivity.
  Qed.
  Lemma form_of_sym s n f j : spec_ok s -> k_protos s = map (fun j => Proto None (Some j)) (List.seq 0 n) ->
    (form_of s f j <-> sym_in s (opt_form f) = Some (Psym s_proto_option j)).
  Proof.
    intros Ok E. split.
    - intros (i & A & B). rewrite (protos_at s n i E) in B. destruct (i <? n); [|discriminate]. cbn in B. congruence.
    - intros A. exists j. split; [exact A|]. rewrite (protos_at s n j E). apply sym_in_bound in A; [|exact Ok].
      rewrite E, map_length, seq_length in A. apply Nat.ltb_lt in A. now rewrite A.
  Qed.

  Lemma is_form_snoc ms x l j : is_form (ms ++ [x]) l j <-> is_form ms l j \/ (j = length ms /\ exists g, In g (fst x) /\ same_form l (opt_form g)).
  Proof.
    split.
    - intros (fs & a & g & E & Hg & Sf). destruct (Nat.lt_ge_cases j (length ms)) as [L|L].
      + rewrite nth_error_app1 in E by easy. left. now exists fs, a, g.
      + right. rewrite nth_error_app2 in E by easy. destruct (j - length ms) as [|[|k]] eqn:Ek; cbn in E; try discriminate.
        injection E as ->. split; [lia|]. now exists g.
    - intros [(fs & a & g & E & Hg & Sf)|(-> & g & Hg & Sf)].
      + exists fs, a, g. split; [|easy]. rewrite nth_error_app1; [exact E|]. apply nth_error_Some. congruence.
      + destruct x as [fs a]. exists fs, a, g. rewrite nth_error_app2, Nat.sub_diag by lia. easy.
  Qed.

  Lemma opt_as_more forms more o x : opt_as forms o x -> opt_as (forms ++ more) o x.
  Proof.
    intros (A & B & C & D & E). do 3 (split; [easy|]). rewrite app_length. split; [|lia].
    rewrite <- D, skipn_app, firstn_app. replace (snd (o_forms o) - length (skipn (fst (o_forms o)) forms)) with 0 by (rewrite skipn_length; lia).
    now rewrite app_nil_r.
  Qed.

  (* one option *)
  Lemma option_step d : exists fuel0, forall fuel ds ms s, fuel0 <= fuel -> opts_in ds ms s ->
    match (let* (s, forms_2) := parse_option_forms alnum narrow fuel (od_forms d) s in
           let* arg_2 := parse_option_arg alnum narrow fuel (od_arg d) in
           add_option s forms_2 arg_2 (od_attr d) (od_action d)) with
    | POk s' => exists fs a, forms_mean alnum narrow (od_forms d) fs /\ arg_means alnum narrow (od_arg d) a /\
        (forall c m, ~ decl_flaw ms fs a (od_attr d) (od_action d) c m) /\ opts_in (ds ++ [d]) (ms ++ [(fs, a)]) s'
    | PErr c m => option_wrong alnum narrow ms d c m
    | PBad => False
    end.
  Proof.
    destruct (parse_option_forms_exact alnum narrow (od_forms d) Lok) as (f1 & F1). destruct (parse_option_arg_exact alnum narrow (od_arg d) Lok) as (f2 & F2).
    exists (f1 + f2). intros fuel ds ms s Hf O. specialize (F1 s fuel ltac:(lia)). specialize (F2 fuel ltac:(lia)).
    destruct (parse_option_forms alnum narrow fuel (od_forms d) s) as [[s1 [offset size]]|c m|]; cbn [pbind]; [| |easy]; [|left; exact F1].
    destruct F1 as (fs & Fm & E1 & -> & -> & E2 & E3 & E4 & E5 & E6 & E7 & E8).
    destruct (parse_option_arg alnum narrow fuel (od_arg d)) as [a|c m|]; cbn [pbind]; [| |easy]; [|right; exists fs; split; [exact Fm|]; left; exact F2].
    assert (Sy : forall l, sym_in s1 l = sym_in s l). { intros [t|t|t|t]; cbn [sym_in]; unfold find_keyword, find_short, find_long; rewrite ?E6, ?E7, ?E8; reflexivity. }
    destruct O as [Op Ok Pr Os Le Ss]. destruct Op as ((O1 & O2 & O3 & O4) & Np & Al).
    assert (Op1 : open_spec s1).
    { unfold open_spec, spec_ok, find_keyword, find_short, find_long. rewrite E2, E3, E4, E5, E6, E7, E8. easy. }
    assert (Pr1 : k_protos s1 = map (fun j => Proto None (Some j)) (List.seq 0 (length (k_options s)))) by congruence.
    assert (Cn : length (k_options s) = length ms).
    { assert (E : length (k_options s) = length (combine ds ms)) by (clear - Os; induction Os; cbn; congruence). rewrite E, combine_length, Le. lia. }
    assert (Fr : firstn (length fs) (skipn (length (k_forms s)) (k_forms s1)) = fs).
    { rewrite E1, skipn_app, skipn_all, Nat.sub_diag. cbn. apply firstn_all. }
    assert (Lf : forall f, In f fs -> leaf_ok (opt_form f)) by (now apply forms_ok with (1 := Fm)).
    assert (FO : forall f j, In f fs -> (form_of s1 f j <-> is_form ms (opt_form f) j)).
    { intros f j Hf1. rewrite (form_of_sym s1 _ f j (proj1 Op1) Pr1), Sy. apply Ss. now apply form_name, Lf. }
    assert (FL : forall c m, option_flaw s1 fs a (od_attr d) (od_action d) c m <-> decl_flaw ms fs a (od_attr d) (od_action d) c m).
    { intros c m. unfold option_flaw, decl_flaw.
      assert (X : (exists f j, m = form_reuse (1 + j) /\ In f fs /\ form_of s1 f j) <-> (exists f j, m = form_reuse (1 + j) /\ In f fs /\ is_form ms (opt_form f) j)).
      { split; intros (f & j & A & B & C); exists f, j; (split; [exact A|]; split; [exact B|]; now apply FO). }
      rewrite X. reflexivity. }
    pose proof (add_option_exact s1 (length (k_forms s)) (length fs) a (od_attr d) (od_action d) Op1) as Add. cbv zeta in Add. rewrite Fr in Add.
    specialize (Add ltac:(rewrite E1, app_length; lia) Lf).
    destruct (add_option s1 (length (k_forms s), length fs) a (od_attr d) (od_action d)) as [s'|c m|]; [| |easy].
    2: { right. exists fs. split; [exact Fm|]. right. exists a. split; [exact F2|]. now apply FL. }
    destruct Add as (A1 & A2 & A3 & A4 & A5 & A6 & A7 & A8 & A9 & A10). exists fs, a. split; [exact Fm|]. split; [exact F2|].
    split; [intros c m X; apply FL in X; now apply (A1 c m)|].
    assert (Pr' : k_protos s' = map (fun j => Proto None (Some j)) (List.seq 0 (length (k_options s')))).
    { rewrite A4, Pr1, A3, app_length, E5. cbn [length]. now rewrite Nat.add_1_r, seq_S, map_app. }
    split.
    - exact A2.
    - congruence.
    - exact Pr'.
    - rewrite A3, E5, A5, E1. rewrite combine_snoc by exact Le. apply Forall2_app.
      + clear - Os. induction Os as [|o x os xs H Os IH]; constructor; [now apply opt_as_more|exact IH].
      + constructor; [|constructor]. unfold opt_as. cbn. rewrite <- E1 at 1. rewrite app_length. split; [easy|]. split; [easy|]. split; [easy|]. split; [exact Fr|lia].
    - rewrite !app_length. cbn. lia.
    - intros l j Hl. rewrite is_form_snoc. cbn [fst]. destruct (name_form l Hl) as (f & <-). rewrite <- (form_of_sym s' _ f j (proj1 A2) Pr').
      rewrite E5, Cn in A9. split.
      + intros H. destruct (Nat.eq_dec j (length ms)) as [->|Nj].
        * right. split; [easy|]. now apply A9.
        * left. apply Ss; [exact Hl|]. destruct H as (i & Si & Pi). rewrite (protos_at s' _ i Pr') in Pi. destruct (i <? length (k_options s')) eqn:El; [|discriminate].
          injection Pi as ->. destruct (sym_in s (opt_form f)) as [y|] eqn:Ey; [rewrite <- Ey, <- Sy; rewrite <- Sy in Ey; rewrite (A7 _ _ Ey) in Si; congruence|].
          exfalso. rewrite <- Sy in Ey. destruct (A10 _ Ey) as (g & Hg & Sf); [congruence|]. apply Nj.
          assert (X : form_of s' f (length ms)) by (apply A9; now exists g). apply (form_of_sym s' _ f _ (proj1 A2) Pr') in X. congruence.
      + intros [H|(-> & H)]; [|now apply A9]. apply Ss in H; [|exact Hl]. apply (form_of_sym s' _ f j (proj1 A2) Pr'). apply A7. now rewrite Sy.
  Qed.

  Lemma build_options_exact l : exists fuel0, forall fuel ds ms s, fuel0 <= fuel -> opts_in ds ms s -> options_mean alnum narrow ds ms ->
    match build_options alnum narrow fuel s (length ds) l with
    | POk s' => exists ms', opts_in (ds ++ l) ms' s' /\ options_mean alnum narrow (ds ++ l) ms'
    | PErr c m => exists l1 d l2 ms', l = l1 ++ d :: l2 /\ options_mean alnum narrow (ds ++ l1) ms' /\ option_wrong alnum narrow ms' d c m
    | PBad => False
    end.
  Proof.
    induction l as [|d l (f2 & IH)].
    - exists 0. intros fuel ds ms s _ O M. cbn [build_options]. exists ms. now rewrite app_nil_r.
    - destruct (option_step d) as (f1 & F). exists (f1 + f2). intros fuel ds ms s Hf O M. cbn [build_options].
      specialize (F fuel ds ms s ltac:(lia) O). pose proof (oi_count _ _ _ O) as Cn. rewrite <- (oi_length _ _ _ O) in Cn. rewrite Cn, Nat.eqb_refl. cbn [negb].
      destruct (parse_option_forms alnum narrow fuel (od_forms d) s) as [[s1 r]|c m|]; cbn [pbind] in *; [| |easy].
      2: { exists [], d, l, ms. now rewrite app_nil_r. }
      destruct (parse_option_arg alnum narrow fuel (od_arg d)) as [a0|c m|]; cbn [pbind] in *; [| |easy].
      2: { exists [], d, l, ms. now rewrite app_nil_r. }
      destruct (add_option s1 r a0 (od_attr d) (od_action d)) as [s2|c m|]; cbn [pbind] in *; [| |easy].
      2: { exists [], d, l, ms. now rewrite app_nil_r. }
      destruct F as (fs & a & A & B & C & O'). assert (M' := om_more alnum narrow ds ms d fs a M A B C).
      specialize (IH fuel _ _ _ ltac:(lia) O' M'). rewrite app_length in IH. cbn [length] in IH. rewrite Nat.add_1_r in IH.
      destruct (build_options alnum narrow fuel s2 (S (length ds)) l) as [s3|c m|]; [| |easy].
      + destruct IH as (ms' & I1 & I2). exists ms'. rewrite <- app_assoc in I1, I2. now split.
      + destruct IH as (l1 & d' & l2 & ms' & -> & I1 & I2). exists (d :: l1), d', l2, ms'. rewrite <- app_assoc in I1. now split.
  Qed.

  Lemma no_options : opts_in [] [] empty_spec.
  Proof.
    split; try easy.
    - split; [|split; [easy|]].
      + split; [|split; [|split]]; try easy; [intros t [|i]; cbn; easy|intros [|i] p o; cbn; easy].
      + intros [|i] p; cbn; easy.
    - constructor.
    - intros [t|t|t|t] j; cbn; try easy; intros _; (split; [|intros (fs & a & g & E & _); now destruct j]); try discriminate. now destruct t as [|x [|y t]].
  Qed.
End Options.
