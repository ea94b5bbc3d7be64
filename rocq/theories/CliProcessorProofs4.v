(* Interpretation of command-line arguments: consequences of the specification, and the
   performing of options. *)
From Coq Require Import List Arith Bool ZArith Lia.
From Verif Require Import CliPatternModel CliMatcherModel CliMatcherSpec CliPatternSpec CliSpecModel CliRecorderModel CliRecorderSpec
  CliProcessorModel CliProcessorSpec CliProcessorProofs CliProcessorProofs2 ArrLib.
Import ListNotations.

Section Facts.
  Variable dash equal : nat.
  Variable s : spec.
  Variable ts : list tseq.
  Variable delegs : list bool.

  (* what is gone through without stopping *)
  Definition may_short (x : item) : Prop := match x with IFlag _ _ k _ => exists d o, kn_decl k = Some (d, o) /\ Z.testbit (o_attr o) 0 = true | _ => False end.

  Lemma gives_up_options g g' v : gives_up ts delegs g g' v -> g_options g' = g_options g /\ g_errors g' = g_errors g /\ g_failed g' = g_failed g /\ g_symbols g' = g_symbols g.
  Proof. now inversion 1. Qed.
  (* the errors grow, and if they do, there is failure *)
  Definition grows (i : nat) (g g' : progress) : Prop :=
    exists l, g_errors g' = g_errors g ++ l /\ Forall (fun e => er_arg e = i) l /\ (g_failed g' = true <-> g_failed g = true \/ l <> []).
  Lemma grows_refl i g : grows i g g.
  Proof. exists []. rewrite app_nil_r. split; [easy|]. split; [constructor|]. split; [now left|intros [H|H]; easy]. Qed.
  Lemma grows_same i g g' : g_errors g' = g_errors g -> g_failed g' = g_failed g -> grows i g g'.
  Proof. intros A B. exists []. rewrite app_nil_r, A, B. split; [easy|]. split; [constructor|]. split; [now left|intros [H|H]; easy]. Qed.
  Lemma grows_one i g g' c m : g_errors g' = g_errors g ++ [Perror i c m] -> g_failed g' = true -> grows i g g'.
  Proof. intros A B. exists [Perror i c m]. split; [exact A|]. split; [now repeat constructor|]. split; [now right|now rewrite B]. Qed.

  Lemma put_grows a y i g g' v : put ts delegs a y i g g' v -> grows i g g' /\ g_options g' = g_options g.
  Proof.
    intros [H|H V|g1 v1 H V M U|g1 v1 H V M U]; [split; [apply grows_refl|easy]|split; [now apply grows_same|easy]| |];
      apply gives_up_options in U as (A & B & C & D); cbn in A, B, C; (split; [eapply grows_one; eassumption|exact A]).
  Qed.
  Lemma refers_grows a k i g g' v : refers ts delegs a k i g g' v -> grows i g g' /\ g_options g' = g_options g.
  Proof. intros [H|g1 v1 H P]; [split; [apply grows_refl|easy]|eapply put_grows; eassumption]. Qed.

  Definition item_arg (x : item) : nat :=
    match x with IPlain _ i _ | IFlag _ i _ _ | IOption i _ _ _ | IUnknown _ i _ _ | IMissing _ i _ _ | IRefused _ i _ _ => i end.
  Lemma follows_grows g x g' v : follows s ts delegs g x g' v -> grows (item_arg x) g g' /\ (v <> VGoOn \/ g_options g' = g_options g ++ declared x).
  Proof.
    intros F. destruct F as [a i is_value y g1 v1 P U|a i k o g1 v1 D U|a i k o d x D B|a i k o d x g1 v1 D B U|i d o v1|a i f c g1 v1 U|a i f c|a i x f]; cbn [declared item_arg].
    - apply put_grows in U as [A B]. rewrite app_nil_r. split; [exact A|now right].
    - rewrite D, app_nil_r. apply refers_grows in U as [A B]. split; [exact A|now right].
    - split; [apply grows_refl|now left].
    - rewrite D. apply refers_grows in U as [A C]. split; [exact A|now right].
    - split; [now apply grows_same|now right].
    - apply gives_up_options in U as (A & B & C & D). cbn in A, B, C. rewrite app_nil_r. split; [eapply grows_one; eassumption|now right].
    - rewrite app_nil_r. split; [eapply grows_one; reflexivity|now right].
    - rewrite app_nil_r. split; [eapply grows_one; reflexivity|now right].
  Qed.
  Lemma grows_trans i g g1 g' : grows i g g1 -> grows i g1 g' -> grows i g g'.
  Proof.
    intros (l & A & B & C) (l' & A' & B' & C'). exists (l ++ l'). rewrite A', A, app_assoc. split; [easy|]. split; [now apply Forall_app|].
    rewrite C', C. split; [intros [[H|H]|H]; [now left|right; now destruct l|right; intros X; apply app_eq_nil in X; tauto]|].
    intros [H|H]; [tauto|]. destruct l; [right; exact H|left; now right].
  Qed.
  Lemma follows_all_grows i g l g' v : follows_all s ts delegs g l g' v -> Forall (fun x => item_arg x = i) l ->
    grows i g g' /\ (v = VGoOn -> g_options g' = g_options g ++ flat_map declared l).
  Proof.
    induction 1 as [g|g x l g' v F Nv|g x l g1 g' v F A IH]; intros H.
    - split; [apply grows_refl|]. intros _. cbn. now rewrite app_nil_r.
    - inversion H as [|? ? Hx Hl]; subst. apply follows_grows in F as [F1 F2]. split; [exact F1|easy].
    - inversion H as [|? ? Hx Hl]; subst. apply follows_grows in F as [F1 [F2|F2]]; [easy|]. destruct (IH Hl) as [I1 I2].
      split; [eapply grows_trans; eassumption|]. intros Hv. cbn. rewrite (I2 Hv), F2. now rewrite app_assoc.
  Qed.
End Facts.

Section Readings.
  Variable dash equal : nat.
  Variable s : spec.

  Lemma short_args a i next pre r l b : reads_short dash s a i next pre r l b -> Forall (fun x => item_arg x = i) l.
  Proof. induction 1; repeat constructor; auto. Qed.
  Lemma arg_args v i next a l b : reads_arg dash equal s v i next a l b -> Forall (fun x => item_arg x = i) l.
  Proof.
    destruct 1 as [a H|c r l b Hv Hc R|name w l b Hv N R]; [now repeat constructor|eapply short_args; eassumption|].
    destruct R; now repeat constructor.
  Qed.

  (* things as they are read *)
  Definition well_read (args : list text) (x : item) : Prop :=
    match x with
    | IFlag a i k o => oc_has_value o = false /\ (forall d, ~ needs_arg k d) /\ match kn_decl k with Some (d, o) => nth_error (k_options s) d = Some o | None => True end
    | IOption i d o v => exists a, nth_error args i = Some a /\ oc_arg o = i /\ oc_has_value o = true /\
        nth_error (k_options s) d <> None /\ oc_name_begin o <= length a /\
        ((oc_value_begin o <> 0 /\ oc_value_begin o <= length a /\ skipn (oc_value_begin o) a = v) \/
         (oc_value_begin o = 0 /\ nth_error args (i + 1) = Some v))
    | _ => True
    end.

  Hypothesis Hargs : args_known s.
  Lemma knows_decl p k d : knows s p k -> (takes_arg k d \/ needs_arg k d) -> nth_error (k_options s) d <> None.
  Proof. intros (_ & pr & _ & _ & K) [(o & D & _)|(o & D & _)]; rewrite D in K; destruct K as [_ ->]; discriminate. Qed.
  Lemma no_takes_needs p k : knows s p k -> (forall d, ~ takes_arg k d) -> forall d, ~ needs_arg k d.
  Proof. intros K N d X. eapply N. eapply needs_takes; eassumption. Qed.

  Lemma short_read args a i next pre r l b : reads_short dash s a i next pre r l b -> nth_error args i = Some a -> a = pre ++ r ->
    nth_error args (i + 1) = next -> Forall (well_read args) l.
  Proof.
    induction 1 as [pre|pre c r k l b K T D R IH|pre c k d K T N|pre c x r k d K T|pre c k d v K N E|pre c k d K N E|pre c r k K T|pre c r K];
      intros Ea Ep En; repeat constructor.
    - now apply no_takes_needs with (1 := K).
    - destruct K as (_ & pr & _ & _ & K). destruct (kn_decl k) as [[d o]|]; tauto.
    - apply IH; [easy| |easy]. now rewrite <- app_assoc.
    - intros d' (o & D' & E'). destruct T as (o' & D'' & E''). apply N. assert (d' = d /\ o' = o) as [-> ->] by (split; congruence). now exists o.
    - destruct K as (_ & pr & _ & _ & K). destruct (kn_decl k) as [[d' o]|]; tauto.
    - exists a. cbn [oc_arg oc_has_value oc_name_begin oc_value_begin]. assert (length a = length pre + 1 + S (length r)) by (subst a; rewrite app_length; cbn; lia).
      do 3 (split; [easy|]). split; [eapply knows_decl; eauto|]. split; [lia|]. left. split; [lia|]. split; [lia|]. subst a.
      change (c :: x :: r) with ([c] ++ x :: r). rewrite app_assoc. replace (length pre + 1) with (length (pre ++ [c])) by (rewrite app_length; reflexivity).
      rewrite skipn_app, skipn_all, Nat.sub_diag. reflexivity.
    - exists a. cbn [oc_arg oc_has_value oc_name_begin oc_value_begin]. assert (length a = length pre + 1) by (subst a; rewrite app_length; cbn; lia).
      do 3 (split; [easy|]). split; [eapply knows_decl; eauto|]. split; [lia|]. right. split; [easy|congruence].
  Qed.
  Lemma long_read (args : list text) i next name v l b : let a : text := dash :: dash :: long_text equal name v in
    reads_long dash s a i next name v l b -> nth_error args i = Some a -> nth_error args (i + 1) = next -> Forall (well_read args) l.
  Proof.
    intros a R Ea En. assert (La : length a = 2 + length name + match v with Some v => 1 + length v | None => 0 end).
    { unfold a, long_text. cbn [length]. rewrite app_length. destruct v; cbn; lia. }
    inversion R as [name' k K N|name' w k d K T|name' k d w K N E|name' k d K N E|name' w k K T|name' w K]; subst name'; subst v l b; repeat constructor; try easy.
    - destruct K as (_ & pr & _ & _ & K). destruct (kn_decl k) as [[d o]|]; tauto.
    - exists a. cbn [oc_arg oc_has_value oc_name_begin oc_value_begin]. do 3 (split; [easy|]). split; [eapply knows_decl; eauto|]. split; [lia|]. left. split; [lia|]. split; [lia|].
      unfold a, long_text. change (dash :: dash :: name ++ equal :: w) with ((dash :: dash :: name) ++ [equal] ++ w). rewrite app_assoc.
      replace (3 + length name) with (length ((dash :: dash :: name) ++ [equal])) by (rewrite app_length; cbn; lia). rewrite skipn_app, skipn_all, Nat.sub_diag. reflexivity.
    - exists a. cbn [oc_arg oc_has_value oc_name_begin oc_value_begin]. do 3 (split; [easy|]). split; [eapply knows_decl; eauto|]. split; [lia|]. right. split; [easy|now rewrite En].
  Qed.
  Lemma arg_read args vals i next a l b : reads_arg dash equal s vals i next a l b -> nth_error args i = Some a ->
    nth_error args (i + 1) = next -> Forall (well_read args) l.
  Proof.
    destruct 1 as [a H|c r l b Hv Hc R|name w l b Hv N R]; intros Ea En; [now repeat constructor| |].
    - eapply short_read; eauto.
    - eapply long_read; eauto.
  Qed.

  Lemma skipn_at (args : list text) i a rest : skipn i args = a :: rest -> nth_error args i = Some a /\ nth_error args (i + 1) = hd_error rest /\ skipn (S i) args = rest.
  Proof.
    revert args. induction i as [|i IH]; intros [|x args] E; try discriminate.
    - cbn in E. injection E as -> ->. cbn. split; [easy|]. split; [now destruct rest|easy].
    - apply IH. exact E.
  Qed.
  Lemma reads_read args vals i rest gs : reads dash equal s vals i rest gs -> rest = skipn i args -> Forall (well_read args) (items gs).
  Proof.
    unfold items. induction 1 as [vals i|vals vals' i a rest l g R V Rr IH|vals vals' i a w rest l g R V Rr IH]; intros E; cbn [flat_map snd]; [constructor| |]; apply Forall_app; symmetry in E.
    - destruct (skipn_at args i a rest E) as (Ea & En & Er). split; [eapply arg_read; eauto|auto].
    - destruct (skipn_at args i a (w :: rest) E) as (Ea & En & Er). split; [eapply arg_read; eauto|]. apply IH.
      destruct (skipn_at args (S i) w rest Er) as (_ & _ & ->). reflexivity.
  Qed.

  Lemma reads_ordered vals i rest gs : reads dash equal s vals i rest gs ->
    Forall (fun g => i <= fst g /\ fst g < i + length rest /\ Forall (fun x => item_arg x = fst g) (snd g)) gs.
  Proof.
    induction 1 as [vals i|vals vals' i a rest l g R V Rr IH|vals vals' i a w rest l g R V Rr IH]; constructor; cbn [fst snd length].
    - split; [lia|]. split; [lia|]. eapply arg_args; eassumption.
    - eapply Forall_impl; [|exact IH]. cbn. intros x (A & B & C). repeat split; try lia. exact C.
    - split; [lia|]. split; [lia|]. eapply arg_args; eassumption.
    - eapply Forall_impl; [|exact IH]. cbn. intros x (A & B & C). repeat split; try lia. exact C.
  Qed.
End Readings.

Section Perform.
  Variable s : spec.
  Variable args : list text.
  Variable accepts : nat -> text -> bool.
  Hypothesis Hact : actions_fit s.

  Lemma invoke_ok l : Forall (well_read s args) l -> forall v,
    exists v', invoke_options s args accepts v (flat_map declared l) = Some (flat_map asked l, v') /\
      v_errors v' = v_errors v ++ flat_map (complaint args accepts) l /\
      v_has_error v' = v_has_error v || match flat_map (complaint args accepts) l with [] => false | _ => true end /\
      v_matcher v' = v_matcher v /\ v_invocations v' = v_invocations v.
  Proof.
    induction 1 as [|x l Hx Hl IH]; intros v.
    - exists v. cbn. rewrite app_nil_r, orb_false_r. easy.
    - cbn [flat_map]. destruct x as [a i vl|a i k o|i d o w|a i f c|a i f c|a i w f]; cbn [declared asked complaint app]; try apply IH.
      + destruct Hx as (Hv & Hn & Hd). destruct (kn_decl k) as [[d x]|] eqn:Ed; [|apply IH]. cbn [app]. cbn [invoke_options]. rewrite Hd. cbn [obind]. rewrite Hv. cbn [negb].
        unfold invoke_without_arg. rewrite (Hact d x Hd); [|destruct (ar_require (o_arg x)) eqn:E; [|easy]; elim (Hn d); now exists x]. cbn [obind].
        destruct (IH v) as (v' & E & F). rewrite E. exists v'. cbn [obind]. split; [reflexivity|exact F].
      + destruct Hx as (a & Ea & Eo & Eh & Ed & Nb & Hv). cbn [invoke_options]. destruct (nth_error (k_options s) d) as [x|] eqn:Ex; [|easy]. cbn [obind]. rewrite Eh. cbn [negb].
        assert (Li : i < length args) by (apply nth_error_Some; congruence). rewrite Eo. replace (length args <=? i) with false by (symmetry; apply Nat.leb_gt; lia).
        rewrite (nth_error_nth args i [] Ea). destruct Hv as [(V0 & V1 & V2)|(V0 & V1)].
        * replace (oc_value_begin o =? 0) with false by (symmetry; apply Nat.eqb_neq; lia). cbn [negb]. rewrite Ea. cbn [obind]. unfold substr at 1.
          replace (oc_value_begin o <=? length a) with true by (symmetry; apply Nat.leb_le; lia). cbn [obind]. rewrite firstn_all2 by (rewrite skipn_length; lia). rewrite V2.
          destruct (accepts d w) eqn:Eacc.
          -- cbn [obind app]. destruct (IH (with_arg_1 v a)) as (v' & E & F). rewrite E. cbn [obind]. exists v'. split; [reflexivity|exact F].
          -- cbn [obind app]. unfold build_opt_form. cbn [with_occ v_occ v_arg_1]. unfold substr. cbn [with_arg_1 v_arg_1 Nat.leb skipn]. cbn [obind]. replace (oc_name_begin o <=? length a) with true by (symmetry; apply Nat.leb_le; lia). cbn [obind].
             match goal with |- context [invoke_options s args accepts ?vv _] => destruct (IH vv) as (v' & E & F1 & F2 & F3 & F4) end. rewrite E. cbn [obind]. exists v'. split; [reflexivity|].
             rewrite F1, F2, F3, F4. unfold build_opt_context. cbn [with_occ v_occ v_arg_1 with_arg_1 v_arg_2 add_error v_errors v_has_error v_matcher v_invocations]. rewrite Eh.
             replace (oc_value_begin o =? 0) with false by (symmetry; apply Nat.eqb_neq; lia). cbn [andb negb orb]. rewrite <- app_assoc. unfold form_in. cbn [app]. rewrite orb_true_r. easy.
        * rewrite V0, Nat.eqb_refl. cbn [negb]. rewrite V1. cbn [obind]. destruct (accepts d w) eqn:Eacc.
          -- cbn [obind app]. destruct (IH (with_arg_2 v w)) as (v' & E & F). rewrite E. cbn [obind]. exists v'. split; [reflexivity|exact F].
          -- rewrite Ea. cbn [obind app]. unfold build_opt_form. cbn [with_occ v_occ v_arg_1]. unfold substr. cbn [with_arg_1 v_arg_1 with_arg_2 v_occ with_occ Nat.leb skipn]. cbn [obind]. replace (oc_name_begin o <=? length a) with true by (symmetry; apply Nat.leb_le; lia). cbn [obind].
             match goal with |- context [invoke_options s args accepts ?vv _] => destruct (IH vv) as (v' & E & F1 & F2 & F3 & F4) end. rewrite E. cbn [obind]. exists v'. split; [reflexivity|].
             rewrite F1, F2, F3, F4. unfold build_opt_context. cbn [with_occ v_occ v_arg_1 with_arg_1 with_arg_2 v_arg_2 add_error v_errors v_has_error v_matcher v_invocations]. rewrite Eh, V0, Nat.eqb_refl.
             cbn [andb negb orb]. rewrite <- app_assoc. unfold form_in. cbn [app]. rewrite orb_true_r. easy.
  Qed.
End Perform.

Section Ends.
  Variable s : spec.
  Variable ts : list tseq.
  Variable delegs : list bool.

  Lemma put_clean a y i g g' v : put ts delegs a y i g g' v -> g_failed g' = false -> (g_lost g = true -> g_failed g = true) ->
    v = VGoOn /\ g_lost g' = g_lost g /\ g_failed g = false /\ map snd (g_symbols g') = map snd (g_symbols g) ++ [i].
  Proof.
    intros [H|H V|g1 v1 H V M U|g1 v1 H V M U] F L; [rewrite L in F by easy; discriminate|cbn; rewrite map_app; easy| |];
      apply gives_up_options in U as (A & B & C & D); cbn in C; congruence.
  Qed.
  Lemma refers_clean a k i g g' v : refers ts delegs a k i g g' v -> g_failed g' = false -> (g_lost g = true -> g_failed g = true) ->
    v = VGoOn /\ g_lost g' = g_lost g /\ g_failed g = false /\ map snd (g_symbols g') = map snd (g_symbols g) ++ (if kn_pattern k then [i] else []).
  Proof.
    intros [H|g1 v1 H P] F L; [rewrite H, app_nil_r; easy|]. rewrite H. eapply put_clean; eassumption.
  Qed.
  Lemma follows_clean g x g' v : follows s ts delegs g x g' v -> g_failed g' = false -> (g_lost g = true -> g_failed g = true) ->
    v = VGoOn -> g_lost g' = g_lost g /\ g_failed g = false /\ proper x /\ map snd (g_symbols g') = map snd (g_symbols g) ++ matched x.
  Proof.
    intros F Hf L. destruct F as [a i is_value y g1 v1 P U|a i k o g1 v1 D U|a i k o d x D B|a i k o d x g1 v1 D B U|i d o v1|a i f c g1 v1 U|a i f c|a i x f]; cbn [matched proper]; intros Hv.
    - destruct (put_clean _ _ _ _ _ _ U Hf L) as (_ & A & B & C). easy.
    - destruct (refers_clean _ _ _ _ _ _ U Hf L) as (_ & A & B & C). easy.
    - discriminate.
    - destruct (refers_clean _ _ _ _ _ _ U Hf L) as (_ & A & C & E). easy.
    - rewrite app_nil_r. easy.
    - apply gives_up_options in U as (A & B & C & D). cbn in C. congruence.
    - discriminate.
    - discriminate.
  Qed.
  (* whoever gives up has failed *)
  Lemma gives_up_lost g g' v : gives_up ts delegs g g' v -> g_failed g = true -> (g_lost g' = true -> g_failed g' = true) /\ (v = VStop -> g_failed g' = true).
  Proof. intros [H|H] F; cbn; auto. Qed.
  Lemma put_lost a y i g g' v : put ts delegs a y i g g' v -> (g_lost g = true -> g_failed g = true) -> (g_lost g' = true -> g_failed g' = true) /\ (v = VStop -> g_failed g' = true).
  Proof.
    intros [H|H V|g1 v1 H V M U|g1 v1 H V M U] L; [now auto|now split| |]; eapply gives_up_lost; try eassumption; reflexivity.
  Qed.
  Lemma refers_lost a k i g g' v : refers ts delegs a k i g g' v -> (g_lost g = true -> g_failed g = true) -> (g_lost g' = true -> g_failed g' = true) /\ (v = VStop -> g_failed g' = true).
  Proof. intros [H|g1 v1 H P] L; [now auto|eapply put_lost; eassumption]. Qed.
  Lemma follows_lost g x g' v : follows s ts delegs g x g' v -> (g_lost g = true -> g_failed g = true) -> (g_lost g' = true -> g_failed g' = true) /\ (v = VStop -> g_failed g' = true).
  Proof.
    intros F L. destruct F as [a i is_value y g1 v1 P U|a i k o g1 v1 D U|a i k o d x D B|a i k o d x g1 v1 D B U|i d o v1|a i f c g1 v1 U|a i f c|a i x f];
      try (now split); [eapply put_lost; eassumption|eapply refers_lost; eassumption|eapply refers_lost; eassumption|].
    eapply gives_up_lost; [eassumption|reflexivity].
  Qed.
  Lemma follows_all_lost g l g' v : follows_all s ts delegs g l g' v -> (g_lost g = true -> g_failed g = true) -> (g_lost g' = true -> g_failed g' = true) /\ (v = VStop -> g_failed g' = true).
  Proof.
    induction 1 as [g|g x l g' v F Nv|g x l g1 g' v F A IH]; intros L; [now auto|eapply follows_lost; eassumption|].
    apply IH. eapply follows_lost; eassumption.
  Qed.
  Lemma failed_grows i g g' : grows i g g' -> g_failed g' = false -> g_failed g = false.
  Proof. intros (l & _ & _ & C) H. destruct (g_failed g); [|easy]. rewrite (proj2 C) in H; [discriminate|now left]. Qed.
  Lemma follows_all_clean g l g' v : follows_all s ts delegs g l g' v -> g_failed g' = false -> (g_lost g = true -> g_failed g = true) -> v = VGoOn ->
    g_lost g' = g_lost g /\ g_failed g = false /\ Forall proper l /\ map snd (g_symbols g') = map snd (g_symbols g) ++ flat_map matched l.
  Proof.
    induction 1 as [g|g x l g' v F Nv|g x l g1 g' v F A IH]; intros Hf L Hv; [|easy|].
    - cbn. rewrite app_nil_r. auto.
    - pose proof (proj1 (follows_lost _ _ _ _ F L)) as L1. destruct (IH Hf L1 Hv) as (A1 & A2 & A3 & A4).
      destruct (follows_clean _ _ _ _ F A2 L eq_refl) as (B1 & B2 & B3 & B4). split; [congruence|]. split; [easy|]. split; [now constructor|].
      cbn. rewrite A4, B4, app_assoc. easy.
  Qed.

  Definition ordered (n : nat) := fix go (lo : nat) (gs : list (nat * list item)) : Prop :=
    match gs with
    | [] => lo <= n
    | (i, l) :: gs => lo <= i /\ i < n /\ Forall (fun x => item_arg x = i) l /\ go i gs
    end.
  Lemma reads_in_order dash equal vals i rest gs : reads dash equal s vals i rest gs -> forall n lo, i + length rest = n -> lo <= i -> ordered n lo gs.
  Proof.
    induction 1 as [vals i|vals vals' i a rest l g R V Rr IH|vals vals' i a w rest l g R V Rr IH]; intros n lo E Hlo; cbn [ordered length] in *; [lia| |].
    - split; [lia|]. split; [lia|]. split; [eapply arg_args; eassumption|]. apply IH; lia.
    - split; [lia|]. split; [lia|]. split; [eapply arg_args; eassumption|]. apply IH; lia.
  Qed.

  Lemma in_order_app lo n i l l' : lo <= i -> i <= n -> Forall (fun e => er_arg e = i) l -> in_order i n l' -> in_order lo n (l ++ l').
  Proof.
    intros A B F [S1 S2]. split.
    - intros k j e e' Hk Ek Ej. destruct (Nat.lt_ge_cases k (length l)) as [K1|K1].
      + rewrite nth_error_app1 in Ek by easy. pose proof (proj1 (Forall_forall _ _) F e (nth_error_In _ _ Ek)) as X. cbn in X. rewrite X.
        destruct (Nat.lt_ge_cases j (length l)) as [J1|J1].
        * rewrite nth_error_app1 in Ej by easy. pose proof (proj1 (Forall_forall _ _) F e' (nth_error_In _ _ Ej)) as Y. cbn in Y. lia.
        * rewrite nth_error_app2 in Ej by easy. pose proof (proj1 (Forall_forall _ _) S2 e' (nth_error_In _ _ Ej)) as Y. cbn in Y. lia.
      + rewrite nth_error_app2 in Ek by easy. rewrite nth_error_app2 in Ej by lia. eapply S1; [|exact Ek|exact Ej]. lia.
    - apply Forall_app. split; [eapply Forall_impl; [|exact F]; cbn; lia|eapply Forall_impl; [|exact S2]; cbn; lia].
  Qed.
  Lemma in_order_nil lo n : in_order lo n [].
  Proof. split; [intros [|k] j e e' _ E; discriminate|constructor]. Qed.
  Lemma in_order_same lo n i l : lo <= i -> i <= n -> Forall (fun e => er_arg e = i) l -> in_order lo n l.
  Proof. intros A B C. rewrite <- (app_nil_r l). eapply in_order_app; [exact A|exact B|exact C|apply in_order_nil]. Qed.

  Lemma comes_facts n g gs g' r : comes_to s ts delegs n g gs g' r -> forall lo, ordered n lo gs -> (g_lost g = true -> g_failed g = true) ->
    exists l, g_errors g' = g_errors g ++ l /\ in_order lo n l /\ (g_failed g' = true <-> g_failed g = true \/ l <> []) /\
      (r = RFailed -> g_failed g' = true) /\
      (forall p, r = RInvoke p -> g_failed g' = false /\ first_match ts p (g_word g') /\ nth_error delegs p <> Some true /\
        g_options g' = g_options g ++ flat_map declared (items gs) /\ Forall proper (items gs) /\
        map snd (g_symbols g') = map snd (g_symbols g) ++ flat_map matched (items gs)) /\
      (forall p i, r = RDeleg p i -> exists gs1 gs2, gs = gs1 ++ gs2 /\ i = match gs2 with (i, _) :: _ => i | [] => n end /\
        delegates ts delegs g' p /\ g_options g' = g_options g ++ flat_map declared (items gs1)).
  Proof.
    assert (Same : forall g : progress, exists l, g_errors g = g_errors g ++ l /\ (forall lo, in_order lo n l) /\ (g_failed g = true <-> g_failed g = true \/ l <> [])).
    { intros h. exists []. rewrite app_nil_r. split; [easy|]. split; [intros; apply in_order_nil|]. split; [now left|intros [X|X]; easy]. }
    induction 1 as [g p gs D|g p El Ef M Nd|g p El Ef M Nd|g El|g El M|g i l gs g1 g' r ND F C IH|g i l gs g' ND F|g i l gs g' d ND F]; intros lo O L.
    - destruct (Same g) as (l & S1 & S2 & S3). exists l. do 3 (split; [auto|]). split; [easy|]. split; [easy|]. intros q j [= <- <-]. exists [], gs. rewrite app_nil_r. easy.
    - destruct (Same g) as (l & S1 & S2 & S3). exists l. do 3 (split; [auto|]). split; [easy|]. split; [|easy]. intros q [= <-]. cbn. rewrite !app_nil_r. easy.
    - destruct (Same g) as (l & S1 & S2 & S3). exists l. do 3 (split; [auto|]). split; [easy|]. split; easy.
    - destruct (Same g) as (l & S1 & S2 & S3). exists l. do 3 (split; [auto|]). split; [auto|]. split; easy.
    - exists [Perror n no_pattern_match too_few]. cbn [failure g_errors g_failed]. split; [easy|]. split; [eapply in_order_same; [exact O| |repeat constructor]; apply Nat.le_refl|].
      split; [split; [now right|easy]|]. easy.
    - cbn in O. destruct O as (O1 & O2 & O3 & O4). destruct (follows_all_grows s ts delegs i _ _ _ _ F O3) as ((l1 & A1 & A2 & A3) & A4). specialize (A4 eq_refl).
      pose proof (proj1 (follows_all_lost _ _ _ _ F L)) as L1. destruct (IH i O4 L1) as (l2 & B1 & B2 & B3 & B4 & B5 & B6).
      exists (l1 ++ l2). split; [rewrite B1, A1, app_assoc; easy|]. split; [eapply in_order_app; [exact O1| |exact A2|exact B2]; lia|].
      split. { rewrite B3, A3. split; [intros [[H|H]|H]; [now left|right; now destruct l1|right; intros X; apply app_eq_nil in X; tauto]|].
        intros [H|H]; [tauto|]. destruct l1; [right; exact H|left; now right]. }
      split; [exact B4|]. split.
      + intros p Hr. destruct (B5 p Hr) as (C1 & C2 & C3 & C4 & C5 & C6). split; [exact C1|]. split; [exact C2|]. split; [exact C3|].
        assert (Ff : g_failed g1 = false). { destruct (g_failed g1); [|easy]. rewrite (proj2 B3) in C1; [discriminate|now left]. }
        destruct (follows_all_clean _ _ _ _ F Ff L eq_refl) as (D1 & D2 & D3 & D4). unfold items in *. cbn [flat_map snd]. rewrite !flat_map_app.
        split; [rewrite C4, A4, app_assoc; easy|]. split; [apply Forall_app; easy|]. rewrite C6, D4, app_assoc. easy.
      + intros p j Hr. destruct (B6 p j Hr) as (gs1 & gs2 & -> & C2 & C3 & C4). exists ((i, l) :: gs1), gs2. split; [easy|]. split; [easy|]. split; [easy|].
        unfold items in *. cbn [flat_map snd]. rewrite flat_map_app, C4, A4, app_assoc. easy.
    - cbn in O. destruct O as (O1 & O2 & O3 & O4). destruct (follows_all_grows s ts delegs i _ _ _ _ F O3) as ((l1 & A1 & A2 & A3) & A4).
      exists l1. split; [exact A1|]. split; [eapply in_order_same; [exact O1| |exact A2]; lia|]. split; [exact A3|]. split; [intros _; now apply (follows_all_lost _ _ _ _ F L)|]. split; easy.
    - cbn in O. destruct O as (O1 & O2 & O3 & O4). destruct (follows_all_grows s ts delegs i _ _ _ _ F O3) as ((l1 & A1 & A2 & A3) & A4).
      exists l1. split; [exact A1|]. split; [eapply in_order_same; [exact O1| |exact A2]; lia|]. split; [exact A3|]. split; [easy|]. split; easy.
  Qed.
End Ends.
