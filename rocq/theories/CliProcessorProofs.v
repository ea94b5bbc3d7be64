(* Interpretation of command-line arguments: the reading exists and is unique. *)
From Coq Require Import List Arith Bool ZArith Lia.
From Verif Require Import CliPatternModel CliMatcherModel CliMatcherSpec CliPatternSpec CliSpecModel CliRecorderModel CliRecorderSpec
  CliProcessorModel CliProcessorSpec.
Import ListNotations.

Section Reading.
  Variable dash equal : nat.
  Variable s : spec.
  Hypothesis Hok : spec_ok s.
  Hypothesis Hargs : args_known s.

  Lemma knows_ex p : (forall i, p = Some i -> i < length (k_protos s)) -> p = None \/ exists k, knows s p k.
  Proof.
    intros H. destruct p as [i|]; [|now left]. right. specialize (H i eq_refl). destruct (nth_error (k_protos s) i) as [pr|] eqn:E; [|apply nth_error_None in E; lia].
    destruct (pr_option pr) as [d|] eqn:Ed.
    - destruct (nth_error (k_options s) d) as [o|] eqn:Eo; [|apply nth_error_None in Eo; destruct Hok as (_ & _ & _ & K); specialize (K _ _ _ E Ed); lia].
      exists (Known i (match pr_pattern pr with Some _ => true | None => false end) (Some (d, o))). split; [reflexivity|]. exists pr. cbn.
      split; [exact E|]. split; [|easy]. destruct (pr_pattern pr); split; congruence.
    - exists (Known i (match pr_pattern pr with Some _ => true | None => false end) None). split; [reflexivity|]. exists pr. cbn.
      split; [exact E|]. split; [|easy]. destruct (pr_pattern pr); split; congruence.
  Qed.

  Lemma knows_unique p k k' : knows s p k -> knows s p k' -> k = k'.
  Proof.
    destruct k as [i b d], k' as [i' b' d']. intros (E & pr & A & B & C) (E' & pr' & A' & B' & C'). cbn in *.
    assert (i = i') by congruence. subst i'. assert (pr = pr') by congruence. subst pr'.
    assert (b = b') by (destruct b, b'; [easy| | |easy]; exfalso; [enough (false = true) by discriminate; tauto|enough (false = true) by discriminate; tauto]).
    subst b'. f_equal. destruct d as [[d o]|], d' as [[d' o']|]; [|destruct C; congruence|destruct C'; congruence|easy].
    destruct C, C'. assert (d = d') by congruence. subst. congruence.
  Qed.

  Lemma short_ex c : find_short s c = None \/ exists k, knows s (find_short s c) k.
  Proof. apply knows_ex. intros i. apply Hok. Qed.
  Lemma long_ex c : find_long s c = None \/ exists k, knows s (find_long s c) k.
  Proof. apply knows_ex. intros i. destruct Hok as (_ & _ & L & _). apply L. Qed.

  Lemma takes_dec k : (exists d, takes_arg k d) \/ forall d, ~ takes_arg k d.
  Proof.
    destruct (kn_decl k) as [[d o]|] eqn:E.
    - destruct (ar_allow (o_arg o)) eqn:A; [left; exists d, o; auto|right]. intros d' (o' & E' & A'). congruence.
    - right. intros d (o & E' & _). congruence.
  Qed.
  Lemma needs_dec k : (exists d, needs_arg k d) \/ forall d, ~ needs_arg k d.
  Proof.
    destruct (kn_decl k) as [[d o]|] eqn:E.
    - destruct (ar_require (o_arg o)) eqn:A; [left; exists d, o; auto|right]. intros d' (o' & E' & A'). congruence.
    - right. intros d (o & E' & _). congruence.
  Qed.
  Lemma needs_takes p k d : knows s p k -> needs_arg k d -> takes_arg k d.
  Proof.
    intros (_ & pr & _ & _ & K) (o & E & R). exists o. split; [easy|]. rewrite E in K. destruct K as [_ K]. destruct Hargs as [H _]. eauto.
  Qed.
  Lemma takes_unique k d d' : takes_arg k d -> takes_arg k d' -> d = d'.
  Proof. intros (o & E & _) (o' & E' & _). congruence. Qed.
  Lemma needs_unique k d d' : needs_arg k d -> needs_arg k d' -> d = d'.
  Proof. intros (o & E & _) (o' & E' & _). congruence. Qed.

  Lemma short_total a i next r : forall pre, exists l b, reads_short dash s a i next pre r l b /\ (b = true -> next <> None).
  Proof.
    induction r as [|c r IH]; intros pre; [exists [], false; split; [constructor|easy]|].
    destruct (short_ex c) as [N|(k & K)]; [eexists _, _; split; [now apply rs_unknown|easy]|].
    destruct (takes_dec k) as [(d & T)|T].
    - destruct r as [|x r]; [|eexists _, _; split; [eapply rs_attached; eassumption|easy]].
      destruct (needs_dec k) as [(d' & N)|N].
      + destruct next as [v|]; [|eexists _, _; split; [eapply rs_missing; eauto|easy]]. eexists _, _. split; [eapply rs_next; eauto|easy].
      + eexists _, _. split; [eapply rs_flag_alone; eauto|easy].
    - assert (D : (exists r', r = dash :: r') \/ forall r', r <> dash :: r').
      { destruct r as [|x r]; [right; discriminate|]. destruct (Nat.eq_dec x dash) as [-> |Hn]; [left; now exists r|right]. congruence. }
      destruct D as [(r' & ->)|D]; [eexists _, _; split; [eapply rs_refused; eauto|easy]|].
      destruct (IH (pre ++ [c])) as (l & b & A & B). eexists _, _. split; [eapply rs_flag; eauto|exact B].
  Qed.

  Lemma long_total a i next name v : exists l b, reads_long dash s a i next name v l b /\ (b = true -> next <> None).
  Proof.
    destruct (long_ex name) as [N|(k & K)]; [eexists _, _; split; [now apply rl_unknown|easy]|].
    destruct v as [v|].
    - destruct (takes_dec k) as [(d & T)|T]; eexists _, _; [split; [eapply rl_attached; eauto|easy]|split; [eapply rl_refused; eauto|easy]].
    - destruct (needs_dec k) as [(d & T)|T]; [|eexists _, _; split; [eapply rl_flag; eauto|easy]].
      destruct next as [x|]; [|eexists _, _; split; [eapply rl_missing; eauto|easy]]. eexists _, _. split; [eapply rl_next; eauto|easy].
  Qed.

  Lemma long_split t : exists name v, t = long_text equal name v /\ ~ In equal name.
  Proof.
    induction t as [|c t (name & v & -> & H)]; [exists [], None; split; [easy|intros []]|].
    destruct (Nat.eq_dec c equal) as [-> |Hn]; [exists [], (Some (long_text equal name v)); split; [easy|intros []]|].
    exists (c :: name), v. split; [easy|]. intros [E|E]; [congruence|tauto].
  Qed.
  Lemma long_split_unique name v name' v' : long_text equal name v = long_text equal name' v' -> ~ In equal name -> ~ In equal name' -> name = name' /\ v = v'.
  Proof.
    revert name'. unfold long_text. induction name as [|c name IH]; intros [|c' name'] E N N'; cbn in *.
    - destruct v, v'; try discriminate; [|easy]. now injection E as ->.
    - exfalso. destruct v; [|discriminate]. injection E as -> _. tauto.
    - exfalso. destruct v'; [|discriminate]. injection E as -> _. tauto.
    - injection E as -> E. destruct (IH name' E) as [-> ->]; tauto.
  Qed.

  Lemma arg_total is_value i next a : exists l b, reads_arg dash equal s is_value i next a l b /\ (b = true -> next <> None).
  Proof.
    assert (D : (is_value = true \/ length a < 2 \/ forall r, a <> dash :: r) \/ is_value = false /\ exists c r, a = dash :: c :: r).
    { destruct is_value; [tauto|]. destruct a as [|x [|c r]]; [left; right; left; cbn; lia|left; right; left; cbn; lia|].
      destruct (Nat.eq_dec x dash) as [-> |Hn]; [right; split; [easy|]; now exists c, r|left; right; right; congruence]. }
    destruct D as [D|(Hv & c & r & ->)]; [exists [IPlain a i is_value], false; split; [now constructor|easy]|].
    destruct (Nat.eq_dec c dash) as [-> |Hn].
    - destruct (long_split r) as (name & v & -> & N). destruct (long_total (dash :: dash :: long_text equal name v) i next name v) as (l & b & A & B).
      exists l, b. split; [now apply ra_long|easy].
    - destruct (short_total (dash :: c :: r) i next (c :: r) [dash]) as (l & b & A & B). exists l, b. split; [now apply ra_short|easy].
  Qed.

  Lemma ends_dec x : {ends_options x} + {~ ends_options x}.
  Proof.
    destruct x; cbn [ends_options]; try (right; tauto). destruct (kn_decl k) as [[d x]|] eqn:E; [|right; intros (d & x & H & _); discriminate].
    destruct (Z.testbit (o_attr x) 1) eqn:A; [|right; intros (d' & x' & H & H2 & _); congruence].
    destruct (Z.testbit (o_attr x) 0) eqn:B; [right; intros (d' & x' & H & _ & H2); congruence|]. left. exists d, x. auto.
  Qed.
  Lemma ends_all l : {exists x, In x l /\ ends_options x} + {~ exists x, In x l /\ ends_options x}.
  Proof.
    induction l as [|x l IH]; [right; now intros (x & [] & _)|]. destruct (ends_dec x) as [E|E]; [left; exists x; split; [now left|easy]|].
    destruct IH as [IH|IH]; [left; destruct IH as (y & A & B); exists y; split; [now right|easy]|right]. intros (y & [<- |A] & B); [tauto|]. apply IH. now exists y.
  Qed.

  Lemma reads_total rest : forall is_value i, exists gs, reads dash equal s is_value i rest gs.
  Proof.
    enough (H : forall n rest, length rest <= n -> forall is_value i, exists gs, reads dash equal s is_value i rest gs) by (intros; eapply H; eauto).
    induction n as [|n IH]; intros [|a r] Hn is_value i; try (exists []; constructor); cbn in Hn; [lia|].
    destruct (arg_total is_value i (hd_error r) a) as (l & b & A & B). destruct b.
    - destruct r as [|v r]; [now elim B|]. cbn [hd_error length] in *. destruct (ends_all l) as [E|E].
      + destruct (IH r ltac:(lia) true (S (S i))) as (gs & G). exists ((i, l) :: gs). eapply r_two; [exact A| |exact G]. tauto.
      + destruct (IH r ltac:(lia) is_value (S (S i))) as (gs & G). exists ((i, l) :: gs). eapply r_two; [exact A| |exact G]. tauto.
    - destruct (ends_all l) as [E|E].
      + destruct (IH r ltac:(lia) true (S i)) as (gs & G). exists ((i, l) :: gs). eapply r_arg; [exact A| |exact G]. tauto.
      + destruct (IH r ltac:(lia) is_value (S i)) as (gs & G). exists ((i, l) :: gs). eapply r_arg; [exact A| |exact G]. tauto.
  Qed.

  Ltac same_known := match goal with H : knows s ?p ?k, H' : knows s ?p ?k' |- _ => assert (k = k') by (eapply knows_unique; eassumption); subst; clear H' end.
  Ltac by_known := match goal with H : ?p = None, H' : knows s ?p _ |- _ => destruct H' as [H' _]; congruence end.
  Ltac same_decl := match goal with H : takes_arg ?k ?d, H' : takes_arg ?k ?d' |- _ => assert (d = d') by (eapply takes_unique; eassumption); subst; clear H'
    | H : needs_arg ?k ?d, H' : needs_arg ?k ?d' |- _ => assert (d = d') by (eapply needs_unique; eassumption); subst; clear H' end.
  Ltac contra := match goal with
    | H : forall d, ~ takes_arg ?k d, H' : takes_arg ?k ?d |- _ => now elim (H d)
    | H : forall d, ~ needs_arg ?k d, H' : needs_arg ?k ?d |- _ => now elim (H d)
    | H : ~ needs_arg ?k ?d, H' : needs_arg ?k ?d |- _ => now elim H
    | H : forall r, ?x :: ?y <> _ :: r |- _ => now elim (H y) end.
  Ltac need_takes := match goal with H : needs_arg ?k ?d, K : knows s _ ?k |- _ => lazymatch goal with _ : takes_arg k d |- _ => fail | _ => pose proof (needs_takes _ _ _ K H) end end.

  Lemma short_unique a i next pre r l b : reads_short dash s a i next pre r l b -> forall l' b', reads_short dash s a i next pre r l' b' -> l = l' /\ b = b'.
  Proof.
    induction 1; intros l' b' R; inversion R; subst; try easy; try by_known; try same_known; repeat need_takes; repeat same_decl; try contra; try easy; try congruence.
    - match goal with H : reads_short _ _ _ _ _ _ _ ?l0 ?b0 |- _ = _ :: ?l0 /\ _ => destruct (IHreads_short _ _ H) as [-> ->] end. easy.
    - assert (v = v0) by congruence. now subst.
  Qed.

  Lemma long_unique a i next name v l b : reads_long dash s a i next name v l b -> forall l' b', reads_long dash s a i next name v l' b' -> l = l' /\ b = b'.
  Proof.
    intros Q l' b' R; inversion Q; subst; inversion R; subst; try easy; try by_known; try same_known; repeat need_takes; repeat same_decl; try contra; try easy; try congruence.
    assert (v0 = v) by congruence. now subst.
  Qed.

  Lemma arg_unique is_value i next a l b : reads_arg dash equal s is_value i next a l b -> forall l' b', reads_arg dash equal s is_value i next a l' b' -> l = l' /\ b = b'.
  Proof.
    intros Q l' b' R; inversion Q; subst; inversion R; subst; try easy;
      try (exfalso; match goal with H : _ \/ length _ < 2 \/ _ |- _ => destruct H as [H|[H|H]]; [congruence|cbn in H; lia|eapply H; reflexivity] end).
    - eapply short_unique; eassumption.
    - match goal with H : long_text _ _ _ = long_text _ _ _ |- _ => apply long_split_unique in H as [-> ->]; [|easy|easy] end. eapply long_unique; eassumption.
  Qed.

  Lemma reads_unique is_value i rest gs : reads dash equal s is_value i rest gs -> forall gs', reads dash equal s is_value i rest gs' -> gs = gs'.
  Proof.
    induction 1; intros gs' R; inversion R; subst; try easy; cbn [hd_error] in *;
      match goal with H : reads_arg _ _ _ _ _ _ _ _ _, H' : reads_arg _ _ _ _ _ _ _ _ _ |- _ => destruct (arg_unique _ _ _ _ _ _ H _ _ H') as [E1 E2] end;
      try discriminate; subst.
    all: match goal with H : ?x = true <-> ?P, H' : ?y = true <-> ?P |- _ => assert (x = y) by (destruct x, y; [easy| | |easy]; exfalso; enough (false = true) by discriminate; tauto) end.
    all: subst; f_equal; now apply IHreads.
  Qed.
End Reading.
