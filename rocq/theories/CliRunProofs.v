(* Lemmas about command-line processing as a whole. *)
From Coq Require Import List Arith Bool ZArith Lia.
From Verif Require Import CliPatternModel CliPatternSpec CliSpecModel CliMatcherModel CliMatcherSpec CliMatcherProps CliRecorderSpec CliRecorderProps CliParserSpec CliValueProofs
  CliProcessorModel CliProcessorSpec CliProcessorProofs4 CliProcessorProps CliArgsModel CliArgsSpec CliArgsProps CliRunModel CliRunSpec ArrLib.
Import ListNotations.

(* ---- sorting ---- *)

Lemma insert_in e l x : In x (sort_insert e l) <-> x = e \/ In x l.
Proof.
  induction l as [|e' l IH]; cbn; [intuition congruence|]. destruct (er_arg e <=? er_arg e'); cbn; [intuition congruence|]. rewrite IH. intuition congruence.
Qed.
Fixpoint ascends (l : list perror) : Prop := match l with [] => True | e :: l => (forall x, In x l -> er_arg e <= er_arg x) /\ ascends l end.
Lemma insert_ascends e l : ascends l -> ascends (sort_insert e l).
Proof.
  induction l as [|e' l IH]; cbn; [now intros _|]. intros [A B]. destruct (er_arg e <=? er_arg e') eqn:E; cbn.
  - apply Nat.leb_le in E. split; [|easy]. intros x [<-|X]; [easy|]. specialize (A x X). lia.
  - apply Nat.leb_gt in E. split; [|now apply IH]. intros x X. apply insert_in in X as [-> |X]; [lia|auto].
Qed.
Lemma about_insert a e l : ascends l -> about a (sort_insert e l) = about a (e :: l).
Proof.
  unfold about. induction l as [|e' l IH]; intros S1; [reflexivity|]. cbn [sort_insert]. destruct (er_arg e <=? er_arg e') eqn:E; [reflexivity|]. apply Nat.leb_gt in E.
  destruct S1 as [S1 S2]. cbn [filter]. rewrite IH by easy. cbn [filter]. destruct (er_arg e =? a) eqn:E1, (er_arg e' =? a) eqn:E2; try reflexivity.
  apply Nat.eqb_eq in E1, E2. lia.
Qed.
Lemma sort_ascends l : ascends (stable_sort l).
Proof. induction l as [|e l IH]; [easy|]. now apply insert_ascends. Qed.
Lemma about_sort a l : about a (stable_sort l) = about a l.
Proof.
  induction l as [|e l IH]; [reflexivity|]. cbn [stable_sort fold_right]. change (fold_right sort_insert [] l) with (stable_sort l). rewrite about_insert by apply sort_ascends.
  unfold about in *. cbn [filter]. now rewrite IH.
Qed.
Lemma ascends_iff l : ascends l <-> forall i j e e', i < j -> nth_error l i = Some e -> nth_error l j = Some e' -> er_arg e <= er_arg e'.
Proof.
  induction l as [|e l IH]; cbn.
  - split; [|easy]. intros _ [|i] j e e' _ E; discriminate.
  - rewrite IH. split.
    + intros [A B] [|i] [|j] x x' L Ei Ej; try lia; cbn in Ei, Ej; [injection Ei as <-; apply A; now apply nth_error_In in Ej|]. eapply B; [|exact Ei|exact Ej]. lia.
    + intros H. split.
      * intros x X. apply In_nth_error in X as [j E]. apply (H 0 (S j)); [lia|reflexivity|exact E].
      * intros i j x x' L Ei Ej. apply (H (S i) (S j)); [lia|exact Ei|exact Ej].
Qed.
Lemma sort_sorted l : sorted_by_arg l (stable_sort l).
Proof. split; [apply ascends_iff, sort_ascends|intros a; apply about_sort]. Qed.
Lemma about_in a e l : In e (about a l) <-> In e l /\ er_arg e = a.
Proof. unfold about. rewrite filter_In. now rewrite Nat.eqb_eq. Qed.
Lemma ascends_about_eq : forall l l', ascends l -> ascends l' -> (forall a, about a l = about a l') -> l = l'.
Proof.
  induction l as [|e l IH]; intros [|e' l'] S1 S2 H; [reflexivity| | |].
  - specialize (H (er_arg e')). unfold about in H. cbn in H. rewrite Nat.eqb_refl in H. discriminate.
  - specialize (H (er_arg e)). unfold about in H. cbn in H. rewrite Nat.eqb_refl in H. discriminate.
  - destruct S1 as [A1 A2], S2 as [B1 B2].
    assert (X : er_arg e = er_arg e').
    { assert (I1 : In e (e' :: l')). { apply (about_in (er_arg e)). rewrite <- H. apply about_in. split; [now left|easy]. }
      assert (I2 : In e' (e :: l)). { apply (about_in (er_arg e')). rewrite H. apply about_in. split; [now left|easy]. }
      destruct I1 as [->|I1]; [easy|]. destruct I2 as [->|I2]; [easy|]. specialize (A1 _ I2). specialize (B1 _ I1). lia. }
    assert (e = e'). { specialize (H (er_arg e)). unfold about in H. cbn in H. rewrite Nat.eqb_refl, <- X, Nat.eqb_refl in H. congruence. }
    subst e'. f_equal. apply IH; [easy|easy|]. intros a. specialize (H a). unfold about in *. cbn in H. destruct (er_arg e =? a); congruence.
Qed.
Lemma sorted_unique l l1 l2 : sorted_by_arg l l1 -> sorted_by_arg l l2 -> l1 = l2.
Proof. intros [A1 B1] [A2 B2]. apply ascends_about_eq; [now apply ascends_iff|now apply ascends_iff|]. intros a. now rewrite B1, B2. Qed.
Lemma sorted_nil l l' : sorted_by_arg l l' -> l' = [] -> l = [].
Proof.
  intros [_ H] ->. destruct l as [|e l]; [reflexivity|]. specialize (H (er_arg e)). unfold about in H. cbn in H. rewrite Nat.eqb_refl in H. discriminate.
Qed.

(* ---- what has been dealt with ---- *)

Section Prefix.
  Variable s : spec.
  Variable ts : list tseq.
  Variable dl : list bool.
  Lemma gives_up_opts g g' v : gives_up ts dl g g' v -> g_options g' = g_options g.
  Proof. now intros [H|H]. Qed.
  Lemma put_opts a y i g g' v : put ts dl a y i g g' v -> g_options g' = g_options g.
  Proof. intros [H|H V|g1 v1 H V M U|g1 v1 H V M U]; try reflexivity; now apply gives_up_opts in U. Qed.
  Lemma refers_opts a k i g g' v : refers ts dl a k i g g' v -> g_options g' = g_options g.
  Proof. intros [H|g1 v1 H P]; [easy|now apply put_opts in P]. Qed.
  Lemma follows_opts g x g' v : follows s ts dl g x g' v -> exists l, (l = [] \/ l = [x]) /\ g_options g' = g_options g ++ flat_map declared l.
  Proof.
    intros F. destruct F as [a i is_value y g1 v1 P U|a i k o g1 v1 D U|a i k o d x D B|a i k o d x g1 v1 D B U|i d o v1|a i f c g1 v1 U|a i f c|a i x f].
    - exists []. rewrite app_nil_r. split; [now left|]. eapply put_opts; eassumption.
    - exists []. rewrite app_nil_r. split; [now left|]. eapply refers_opts; eassumption.
    - exists []. rewrite app_nil_r. split; [now left|easy].
    - eexists. split; [now right|]. cbn. rewrite D, app_nil_r. apply refers_opts in U. now rewrite U.
    - eexists. split; [now right|]. reflexivity.
    - exists []. rewrite app_nil_r. split; [now left|]. now apply gives_up_opts in U.
    - exists []. rewrite app_nil_r. split; [now left|easy].
    - exists []. rewrite app_nil_r. split; [now left|easy].
  Qed.
  Lemma follows_all_opts g l g' v : follows_all s ts dl g l g' v -> exists l1 l2, l = l1 ++ l2 /\ g_options g' = g_options g ++ flat_map declared l1.
  Proof.
    induction 1 as [g|g x l g' v F Nv|g x l g1 g' v F A IH].
    - exists [], []. split; [easy|]. cbn. now rewrite app_nil_r.
    - apply follows_opts in F as (l1 & [-> | ->] & E); [exists [], (x :: l)|exists [x], l]; now split.
    - apply follows_grows in F as [_ [F|F]]; [easy|]. destruct IH as (l1 & l2 & -> & E). exists (x :: l1), l2. split; [reflexivity|]. cbn. rewrite E, F, app_assoc. reflexivity.
  Qed.
  Lemma follows_all_go g l g' v : follows_all s ts dl g l g' v -> v = VGoOn -> g_options g' = g_options g ++ flat_map declared l.
  Proof.
    induction 1 as [g|g x l g' v F Nv|g x l g1 g' v F A IH]; intros Hv; [cbn; now rewrite app_nil_r|easy|].
    apply follows_grows in F as [_ [F|F]]; [easy|]. cbn. now rewrite (IH Hv), F, app_assoc.
  Qed.
  Lemma comes_opts n g gs g' r : comes_to s ts dl n g gs g' r -> exists l rest, items gs = l ++ rest /\ g_options g' = g_options g ++ flat_map declared l.
  Proof.
    unfold items. induction 1 as [g p gs D|g p El Ef M Nd|g p El Ef M Nd|g El|g El M|g i l gs g1 g' r ND F C IH|g i l gs g' ND F|g i l gs g' d ND F].
    1-5: eexists [], _; split; [reflexivity|]; cbn; now rewrite app_nil_r.
    - apply follows_all_go in F; [|easy]. destruct IH as (l1 & l2 & E1 & E2). exists (l ++ l1), l2. cbn [flat_map snd]. rewrite E1, flat_map_app, E2, F, !app_assoc. easy.
    - apply follows_all_opts in F as (l1 & l2 & -> & E). exists l1. eexists. cbn [flat_map snd]. rewrite <- app_assoc. split; [reflexivity|exact E].
    - apply follows_all_opts in F as (l1 & l2 & -> & E). exists l1. eexists. cbn [flat_map snd]. rewrite <- app_assoc. split; [reflexivity|exact E].
  Qed.
End Prefix.

(* ---- lineages ---- *)

Lemma flat_map_rev_cons {A B} (f : A -> list B) x l : flat_map f (rev (x :: l)) = flat_map f (rev l) ++ f x.
Proof. cbn. rewrite flat_map_app. cbn. now rewrite app_nil_r. Qed.

Section Lines.
  Variable dash equal : nat.
  Variable args : list text.
  Hypothesis Hargs : 1 <= length args.

  Definition level_ok (lv : level) : Prop :=
    actions_fit (c_spec (lv_command lv)) /\ Forall (well_read (c_spec (lv_command lv)) args) (lv_taken lv) /\
    g_options (lv_progress lv) = flat_map declared (lv_taken lv).

  Lemma taken_read s vals offset gs g l : args_known s -> reads dash equal s vals offset (skipn offset args) gs -> takes gs g l -> Forall (well_read s args) l.
  Proof.
    intros Ar R [[rest E] _]. pose proof (reads_read dash equal s Ar args _ _ _ _ R eq_refl) as W. rewrite E in W. now apply Forall_app in W.
  Qed.

  Lemma lineage_facts ls offset failed : lineage dash equal args ls offset failed ->
    1 <= offset <= length args /\ (failed = true <-> all_found ls <> []) /\ Forall level_ok ls /\
    match ls with [] => failed = false | lv :: _ => failed = g_failed (lv_progress lv) end.
  Proof.
    induction 1 as [|ls offset failed c qs gs g p i l L IH W R C T].
    - split; [lia|]. split; [cbn; easy|]. split; [constructor|reflexivity].
    - destruct IH as (I1 & I2 & I3 & _). destruct W as (_ & _ & Ok & Ar & Ac & _). destruct (outcome_exact _ _ _ _ _ _ _ _ _ _ _ (proj2 I1) R C) as (O1 & O2 & _ & _ & O5).
      destruct (O5 p i eq_refl) as (O6 & _). split; [lia|]. split.
      + unfold all_found. rewrite flat_map_rev_cons. cbn [lv_progress]. change (flat_map _ (rev ls)) with (all_found ls). rewrite O2, I2. destruct (all_found ls) as [|e l0]; cbn; [tauto|]. split; [easy|]. now left.
      + split; [|reflexivity]. constructor; [|exact I3]. split; [exact Ac|]. split; [eapply taken_read; eassumption|apply T].
  Qed.

  Lemma gather_exact parents ls own : Forall2 stands_at parents ls -> gather_errors parents own = all_found ls ++ own.
  Proof.
    intros H. revert own. induction H as [|a lv parents ls H F IH]; intros own; [reflexivity|]. cbn [gather_errors]. rewrite IH. unfold all_found. rewrite flat_map_rev_cons.
    destruct H as (_ & _ & -> & _). reflexivity.
  Qed.

  Definition any (l : list perror) : bool := match l with [] => false | _ => true end.
  Lemma any_app l l' : any (l ++ l') = any l || any l'.
  Proof. now destruct l. Qed.
  Lemma invoke_all_exact parents ls : Forall2 stands_at parents ls -> Forall level_ok ls -> forall lv v, level_ok lv ->
    exists v', invoke_all args parents (lv_command lv) v (g_options (lv_progress lv)) = Some (all_asked (lv :: ls), v') /\
      v_errors v' = v_errors v ++ all_complaints args (lv :: ls) /\ v_has_error v' = v_has_error v || any (all_complaints args (lv :: ls)) /\
      v_matcher v' = v_matcher v.
  Proof.
    intros H. induction H as [|a lv' parents ls H F IH]; intros O lv v (A1 & A2 & A3).
    - cbn [invoke_all]. rewrite A3. destruct (invoke_ok _ args (c_accepts (lv_command lv)) A1 _ A2 v) as (v' & E & E1 & E2 & E3 & _). rewrite E. exists v'. split; [reflexivity|].
      unfold all_complaints. cbn [rev app flat_map]. rewrite app_nil_r. unfold level_complaints. now split.
    - inversion O as [|? ? O1 O2]; subst. destruct (IH O2 lv' v O1) as (v1 & E & E1 & E2 & E3). cbn [invoke_all]. destruct H as (-> & -> & _ & _). rewrite E. cbn [obind].
      rewrite A3. destruct (invoke_ok _ args (c_accepts (lv_command lv)) A1 _ A2 v1) as (v' & F0 & F1 & F2 & F3 & _). rewrite F0. cbn [obind]. exists v'.
      assert (Len : length parents = length ls) by (clear - F; induction F; cbn; congruence). split; [cbn [all_asked length]; now rewrite Len|].
      unfold all_complaints in *. rewrite (flat_map_rev_cons _ lv), F1, F2, F3, E1, E2, E3, any_app, <- app_assoc, <- orb_assoc. now split.
  Qed.
End Lines.
Lemma complete_iff attr : negb (Z.land attr CliBuildModel.completing =? 0)%Z = true <-> Z.testbit attr 0 = true.
Proof.
  unfold CliBuildModel.completing. change 1%Z with (Z.ones 1). rewrite Z.land_ones by lia. change (2 ^ 1)%Z with 2%Z. rewrite <- Z.bit0_mod.
  destruct (Z.testbit attr 0); cbn; easy.
Qed.
