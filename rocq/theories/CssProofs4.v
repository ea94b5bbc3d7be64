(* Proofs about parsing of CSS colors *)
From Coq Require Import ZArith Lia String.
From Coq Require Import List Bool.
From Verif Require Import CInt CssModel CssSpec CssProofs CssProofs2 CssProofs3 ArrLib.
Import ListNotations.
Open Scope Z_scope.

Definition stop (q : list Z) : Prop := q = [] \/ exists q', q = 44 :: q'.

Lemma scan_split p : forall a q, scan p = (a, q) ->
  p = a ++ q /\ ~ In 37 a /\ ~ In 44 a /\ (q = [] \/ exists c q', q = c :: q' /\ (c = 37 \/ c = 44)).
Proof.
  induction p as [|c p IH]; intros a q H; cbn in H.
  - injection H as <- <-. cbn. tauto.
  - destruct (c =? 37) eqn:E1; [|destruct (c =? 44) eqn:E2]; cbn in H.
    + injection H as <- <-. cbn. apply Z.eqb_eq in E1. repeat split; auto. right. exists c, p. auto.
    + injection H as <- <-. cbn. apply Z.eqb_eq in E2. repeat split; auto. right. exists c, p. auto.
    + destruct (scan p) as [a' q'] eqn:E. injection H as <- <-. destruct (IH a' q' eq_refl) as (-> & H1 & H2 & H3).
      apply Z.eqb_neq in E1, E2. cbn. repeat split; auto; intros [X|X]; auto.
Qed.

Lemma scan_join a q : ~ In 37 a -> ~ In 44 a -> (q = [] \/ exists c q', q = c :: q' /\ (c = 37 \/ c = 44)) ->
  scan (a ++ q) = (a, q).
Proof.
  intros H1 H2 H3. induction a as [|c a IH]; cbn.
  - destruct H3 as [->|(c & q' & -> & [->| ->])]; reflexivity.
  - cbn in H1, H2. replace (c =? 37) with false by (symmetry; apply Z.eqb_neq; intuition).
    replace (c =? 44) with false by (symmetry; apply Z.eqb_neq; intuition). cbn. rewrite IH by tauto. reflexivity.
Qed.

Lemma skip_ok p q : skip_spaces p = Some q <-> exists n, p = repeat 32 n ++ q /\ q <> [] /\ hd 0 q <> 32.
Proof.
  induction p as [|c p IH]; cbn.
  - split; [discriminate|]. intros (n & E & N & _). destruct n; [cbn in E; congruence|discriminate].
  - destruct (c =? 32) eqn:E.
    + apply Z.eqb_eq in E. subst c. rewrite IH. split.
      * intros (n & -> & H). exists (S n). auto.
      * intros (n & E & N & H). destruct n as [|n]; [cbn in E; subst q; cbn in H; congruence|].
        exists n. cbn in E. injection E as ->. auto.
    + apply Z.eqb_neq in E. split.
      * intros H. injection H as <-. exists 0%nat. cbn. repeat split; auto; discriminate.
      * intros (n & X & N & H). destruct n as [|n]; [cbn in X; congruence|]. cbn in X. congruence.
Qed.

Section Css.
Context {F : Type} (one : F) (read : list Z -> option F).
Hypothesis Hread : read [] = None.

Lemma arg_text_nonempty t v p : arg_text read t v p -> t <> [].
Proof. intros (b & -> & _ & _ & R). destruct p; [now destruct b|]. rewrite app_nil_r. intros ->. congruence. Qed.

Lemma parse_number_ok p v per q : parse_number read p = Some (v, per, q) <->
  exists t, p = t ++ q /\ arg_text read t v per /\ (per = false -> stop q).
Proof.
  destruct p as [|c p].
  { split; [discriminate|]. intros (t & E & A & _). symmetry in E. apply app_eq_nil in E. destruct E as [-> ->].
    now apply arg_text_nonempty in A. }
  unfold parse_number. destruct (scan (c :: p)) as [a q0] eqn:E. split.
  - apply scan_split in E. destruct E as (-> & H1 & H2 & H3). destruct (read a) as [v'|] eqn:R; [|discriminate].
    destruct H3 as [->|(d & q' & -> & [->| ->])]; cbn; intros H; injection H as <- <- <-.
    + exists a. split; [reflexivity|]. split; [exists a; rewrite app_nil_r; auto|]. intros _. now left.
    + exists (a ++ [37]). rewrite <- app_assoc. split; [reflexivity|]. split; [exists a; auto|discriminate].
    + exists a. split; [reflexivity|]. split; [exists a; rewrite app_nil_r; auto|]. intros _. right. eauto.
  - intros (t & P & (b & -> & H1 & H2 & R) & S). rewrite P in E. destruct per.
    + rewrite <- app_assoc in E. cbn [app] in E. rewrite scan_join in E by (auto; right; eauto).
      injection E as <- <-. rewrite R. reflexivity.
    + rewrite app_nil_r in E. rewrite scan_join in E.
      * injection E as <- <-. rewrite R. destruct (S eq_refl) as [->|(q' & ->)]; reflexivity.
      * exact H1.
      * exact H2.
      * destruct (S eq_refl) as [->|(q' & ->)]; [now left|right; eauto].
Qed.

Lemma parse_first_ok p v per q : parse_arg read true p = Some (v, per, q) <->
  exists t, p = t ++ q /\ arg_text read t v per /\ (per = false -> stop q).
Proof. rewrite <- parse_number_ok. destruct p; reflexivity. Qed.

Lemma parse_next_ok p v per q : parse_arg read false p = Some (v, per, q) <->
  exists t, p = t ++ q /\ next_arg read t v per /\ (per = false -> stop q).
Proof.
  destruct p as [|c p].
  { split; [discriminate|]. intros (t & E & (n & u & -> & _) & _). discriminate E. }
  cbn [parse_arg negb]. split.
  - destruct (c =? 44) eqn:E; [|discriminate]. apply Z.eqb_eq in E. subst c.
    destruct (skip_spaces p) as [u|] eqn:S; [|discriminate]. apply skip_ok in S. destruct S as (n & -> & _ & H).
    rewrite parse_number_ok. intros (t & -> & A & S). exists (44 :: repeat 32 n ++ t).
    split; [cbn; now rewrite app_assoc|]. split; [|exact S]. exists n, t. split; [reflexivity|]. split; [|exact A].
    apply arg_text_nonempty in A. now destruct t.
  - intros (t & E & (n & u & -> & H & A) & S). cbn in E. injection E as -> ->. cbn [Z.eqb].
    replace (44 =? 44) with true by reflexivity. rewrite <- app_assoc.
    pose proof (arg_text_nonempty _ _ _ A) as N.
    replace (skip_spaces (repeat 32 n ++ u ++ q)) with (Some (u ++ q)).
    2:{ symmetry. apply skip_ok. exists n. split; [reflexivity|]. destruct u; [congruence|]. split; [discriminate|exact H]. }
    apply parse_number_ok. eauto.
Qed.

Lemma at_begin_false t q : t <> [] -> at_begin (t ++ q) q = false.
Proof. intros H. unfold at_begin. rewrite app_length. apply Nat.eqb_neq. destruct t; [congruence|cbn; lia]. Qed.

Lemma at_begin_true t : at_begin t t = true.
Proof. apply Nat.eqb_refl. Qed.

Lemma next_stop t v p q : next_arg read t v p -> stop (t ++ q).
Proof. intros (n & u & -> & _). right. eexists. reflexivity. Qed.

Lemma next_nonempty t v p : next_arg read t v p -> t <> [].
Proof. intros (n & u & -> & _). discriminate. Qed.

Lemma parse_args_3 args x y z a px py pz pa :
  parse_args one read args false = Some ((x, px), (y, py), (z, pz), (a, pa)) <->
  three_args read args x y z px py pz /\ a = one /\ pa = false.
Proof.
  unfold parse_args. rewrite at_begin_true. split.
  - destruct (parse_arg read true args) as [[[x' px'] q1]|] eqn:E1; cbn [obind]; [|discriminate].
    apply parse_first_ok in E1. destruct E1 as (t1 & -> & A1 & S1).
    rewrite at_begin_false by eauto using arg_text_nonempty.
    destruct (parse_arg read false q1) as [[[y' py'] q2]|] eqn:E2; cbn [obind]; [|discriminate].
    apply parse_next_ok in E2. destruct E2 as (t2 & -> & A2 & S2).
    rewrite app_assoc. rewrite at_begin_false by (apply arg_text_nonempty in A1; destruct t1; [congruence|discriminate]).
    destruct (parse_arg read false q2) as [[[z' pz'] q3]|] eqn:E3; cbn [obind]; [|discriminate].
    apply parse_next_ok in E3. destruct E3 as (t3 & -> & A3 & S3).
    destruct q3; [|discriminate]. intros H. injection H as <- <- <- <- <- <- <- <-.
    split; [|auto]. exists t1, t2, t3. rewrite app_nil_r, <- app_assoc. auto.
  - intros [(t1 & t2 & t3 & -> & A1 & A2 & A3) [-> ->]].
    replace (parse_arg read true (t1 ++ t2 ++ t3)) with (Some (x, px, t2 ++ t3)).
    2:{ symmetry. apply parse_first_ok. exists t1. split; [reflexivity|]. split; [exact A1|].
        intros _. eapply next_stop; eassumption. }
    cbn [obind]. rewrite at_begin_false by eauto using arg_text_nonempty.
    replace (parse_arg read false (t2 ++ t3)) with (Some (y, py, t3)).
    2:{ symmetry. apply parse_next_ok. exists t2. split; [reflexivity|]. split; [exact A2|].
        intros _. rewrite <- (app_nil_r t3). eapply next_stop; eassumption. }
    cbn [obind]. rewrite app_assoc. rewrite at_begin_false by (apply arg_text_nonempty in A1; destruct t1; [congruence|discriminate]).
    replace (parse_arg read false t3) with (Some (z, pz, @nil Z)).
    2:{ symmetry. apply parse_next_ok. exists t3. rewrite app_nil_r. split; [reflexivity|]. split; [exact A3|].
        intros _. now left. }
    reflexivity.
Qed.

Lemma parse_args_4 args x y z a px py pz pa :
  parse_args one read args true = Some ((x, px), (y, py), (z, pz), (a, pa)) <->
  four_args read args x y z a px py pz pa.
Proof.
  unfold parse_args. rewrite at_begin_true. split.
  - destruct (parse_arg read true args) as [[[x' px'] q1]|] eqn:E1; cbn [obind]; [|discriminate].
    apply parse_first_ok in E1. destruct E1 as (t1 & -> & A1 & S1).
    pose proof (arg_text_nonempty _ _ _ A1) as N1.
    rewrite at_begin_false by assumption.
    destruct (parse_arg read false q1) as [[[y' py'] q2]|] eqn:E2; cbn [obind]; [|discriminate].
    apply parse_next_ok in E2. destruct E2 as (t2 & -> & A2 & S2).
    rewrite app_assoc. rewrite at_begin_false by (destruct t1; [congruence|discriminate]).
    destruct (parse_arg read false q2) as [[[z' pz'] q3]|] eqn:E3; cbn [obind]; [|discriminate].
    apply parse_next_ok in E3. destruct E3 as (t3 & -> & A3 & S3).
    rewrite (app_assoc (t1 ++ t2)). rewrite at_begin_false by (destruct t1; [congruence|discriminate]).
    destruct (parse_arg read false q3) as [[[a' pa'] q4]|] eqn:E4; cbn [obind]; [|discriminate].
    apply parse_next_ok in E4. destruct E4 as (t4 & -> & A4 & S4).
    destruct q4; [|discriminate]. intros H. injection H as <- <- <- <- <- <- <- <-.
    exists t1, t2, t3, t4. rewrite app_nil_r, <- !app_assoc. auto.
  - intros (t1 & t2 & t3 & t4 & -> & A1 & A2 & A3 & A4).
    pose proof (arg_text_nonempty _ _ _ A1) as N1.
    replace (parse_arg read true (t1 ++ t2 ++ t3 ++ t4)) with (Some (x, px, t2 ++ t3 ++ t4)).
    2:{ symmetry. apply parse_first_ok. exists t1. split; [reflexivity|]. split; [exact A1|].
        intros _. eapply next_stop; eassumption. }
    cbn [obind]. rewrite at_begin_false by assumption.
    replace (parse_arg read false (t2 ++ t3 ++ t4)) with (Some (y, py, t3 ++ t4)).
    2:{ symmetry. apply parse_next_ok. exists t2. split; [reflexivity|]. split; [exact A2|].
        intros _. eapply next_stop; eassumption. }
    cbn [obind]. rewrite (app_assoc t1). rewrite at_begin_false by (destruct t1; [congruence|discriminate]).
    replace (parse_arg read false (t3 ++ t4)) with (Some (z, pz, t4)).
    2:{ symmetry. apply parse_next_ok. exists t3. split; [reflexivity|]. split; [exact A3|].
        intros _. rewrite <- (app_nil_r t4). eapply next_stop; eassumption. }
    cbn [obind]. rewrite (app_assoc (t1 ++ t2)). rewrite at_begin_false by (destruct t1; [congruence|discriminate]).
    replace (parse_arg read false t4) with (Some (a, pa, @nil Z)).
    2:{ symmetry. apply parse_next_ok. exists t4. rewrite app_nil_r. split; [reflexivity|]. split; [exact A4|].
        intros _. now left. }
    reflexivity.
Qed.

Lemma split_call_ok s label args : split_call s = Some (label, args) -> s = label ++ 40 :: args.
Proof.
  revert label args. induction s as [|c s IH]; intros label args; cbn; [discriminate|].
  destruct (c =? 40) eqn:E; cbn.
  - intros H. injection H as <- <-. apply Z.eqb_eq in E. now subst c.
  - destruct (split_call s) as [[l a]|]; cbn [obind]; [|discriminate]. intros H. injection H as <- <-.
    cbn. f_equal. now apply IH.
Qed.

Lemma obind_some {A B} (m : option A) (k : A -> option B) r : obind m k = Some r -> exists a, m = Some a /\ k a = Some r.
Proof. destruct m as [a|]; cbn [obind]; [eauto|discriminate]. Qed.

Lemma rgb_args_ok args wa c : parse_rgb_args one read args wa = Some c <->
  exists r g b a, (if wa then four_args read args r g b a false false false false
                   else three_args read args r g b false false false /\ a = one) /\ c = CRgb r g b a \/
                  (if wa then four_args read args r g b a true true true false
                   else three_args read args r g b true true true /\ a = one) /\ c = CRgbP r g b a.
Proof.
  unfold parse_rgb_args. split.
  - intros H. apply obind_some in H. destruct H as ([[[[r pr] [g pg]] [b pb]] [a pa]] & E & H).
    exists r, g, b, a. destruct pr, pg, pb, pa; try discriminate H; cbn in H; injection H as <-;
      [right|left]; (split; [|reflexivity]); destruct wa;
      try (apply parse_args_4 in E; exact E); apply parse_args_3 in E; tauto.
  - intros (r & g & b & a & [[H ->]|[H ->]]).
    + replace (parse_args one read args wa) with (Some ((r, false), (g, false), (b, false), (a, false)));
        [reflexivity|]. symmetry. destruct wa; [now apply parse_args_4|apply parse_args_3; tauto].
    + replace (parse_args one read args wa) with (Some ((r, true), (g, true), (b, true), (a, false)));
        [reflexivity|]. symmetry. destruct wa; [now apply parse_args_4|apply parse_args_3; tauto].
Qed.

Lemma hsl_args_ok args wa c : parse_hsl_args one read args wa = Some c <->
  exists h s l a, (if wa then four_args read args h s l a false true true false
                   else three_args read args h s l false true true /\ a = one) /\ c = CHsl h s l a.
Proof.
  unfold parse_hsl_args. split.
  - intros H. apply obind_some in H. destruct H as ([[[[r pr] [g pg]] [b pb]] [a pa]] & E & H).
    exists r, g, b, a. destruct pr, pg, pb, pa; try discriminate H; cbn in H; injection H as <-;
      (split; [|reflexivity]); destruct wa;
      try (apply parse_args_4 in E; exact E); apply parse_args_3 in E; tauto.
  - intros (r & g & b & a & [H ->]).
    replace (parse_args one read args wa) with (Some ((r, false), (g, true), (b, true), (a, false)));
        [reflexivity|]. symmetry. destruct wa; [now apply parse_args_4|apply parse_args_3; tauto].
Qed.

Lemma parse_call_sound s c : parse_call one read s = Some c -> css_text one read color_names (s ++ [41]) c.
Proof.
  unfold parse_call. destruct (split_call s) as [[label args]|] eqn:E; [|discriminate].
  apply split_call_ok in E. subst s. rewrite <- app_assoc. cbn [app].
  assert (K : forall l, sv_eq label (str l) = true -> label ++ 40 :: args ++ [41] = call l args).
  { intros l X. apply sv_eq_ok in X. now subst label. }
  destruct (sv_eq label (str "rgb")) eqn:E1; [|destruct (sv_eq label (str "rgba")) eqn:E2]; cbn [orb].
  - apply K in E1 as X. rewrite X. apply sv_eq_ok in E1. subst label.
    change (sv_eq (str "rgb") (str "rgba")) with false. rewrite rgb_args_ok.
    intros (r & g & b & a & [[[H ->] ->]|[[H ->] ->]]); now constructor.
  - apply K in E2 as X. rewrite X. rewrite rgb_args_ok.
    intros (r & g & b & a & [[H ->]|[H ->]]); now constructor.
  - destruct (sv_eq label (str "hsl")) eqn:E3; [|destruct (sv_eq label (str "hsla")) eqn:E4]; cbn [orb].
    + apply K in E3 as X. rewrite X. apply sv_eq_ok in E3. subst label.
      change (sv_eq (str "hsl") (str "hsla")) with false. rewrite hsl_args_ok.
      intros (r & g & b & a & [[H ->] ->]); now constructor.
    + apply K in E4 as X. rewrite X. rewrite hsl_args_ok.
      intros (r & g & b & a & [H ->]); now constructor.
    + discriminate.
Qed.

Lemma names_plain s i : nth_error color_names i = Some s -> hd 0 s <> 35 /\ last s 0 <> 41 /\ s <> [].
Proof.
  intros H. apply nth_error_In in H.
  assert (X : forallb (fun s => negb (hd 0 s =? 35) && negb (last s 0 =? 41) && negb (length s =? 0)%nat) color_names = true)
    by (vm_compute; reflexivity).
  rewrite forallb_forall in X. specialize (X s H). rewrite !andb_true_iff, !negb_true_iff in X.
  destruct X as [[X1 X2] X3]. apply Z.eqb_neq in X1, X2. apply Nat.eqb_neq in X3. repeat split; auto. intros ->. now apply X3.
Qed.

Lemma parse_css_call label t : hd 0 (str label) <> 35 -> str label <> [] ->
  parse_css one read (call label t) = Some (parse_call one read (str label ++ 40 :: t)).
Proof.
  intros H N. unfold call, parse_css. destruct (str label) as [|c l]; [congruence|]. cbn [app].
  cbn in H. replace (c =? 35) with false by (symmetry; now apply Z.eqb_neq).
  replace (c :: l ++ 40 :: t ++ [41]) with ((c :: l ++ 40 :: t) ++ [41]) by (cbn; rewrite <- app_assoc; reflexivity).
  rewrite last_last, removelast_last. reflexivity.
Qed.

Lemma parse_css_complete s c : css_text one read color_names s c -> parse_css one read s = Some (Some c).
Proof.
  intros H. destruct H as [t x H|s i H|t r g b H|t r g b H|t r g b a H|t r g b a H|t h s l H|t h s l a H].
  - cbn [parse_css]. change (35 =? 35) with true. cbv iota. destruct (parse_hex_form_ok t) as (v & E & X).
    apply X in H. subst v. rewrite E. reflexivity.
  - destruct (names_plain s i H) as (P1 & P2 & P3). destruct (find_by_name_ok s) as (v & E & X).
    apply X in H. subst v. unfold parse_css. destruct s as [|ch s]; [congruence|]. cbn in P1.
    replace (ch =? 35) with false by (symmetry; now apply Z.eqb_neq).
    replace (last (ch :: s) 0 =? 41) with false by (symmetry; now apply Z.eqb_neq).
    rewrite E. reflexivity.
  - rewrite parse_css_call by (vm_compute; discriminate). f_equal.
    transitivity (parse_rgb_args one read t false); [reflexivity|]. apply rgb_args_ok. exists r, g, b, one. left. auto.
  - rewrite parse_css_call by (vm_compute; discriminate). f_equal.
    transitivity (parse_rgb_args one read t false); [reflexivity|]. apply rgb_args_ok. exists r, g, b, one. right. auto.
  - rewrite parse_css_call by (vm_compute; discriminate). f_equal.
    transitivity (parse_rgb_args one read t true); [reflexivity|]. apply rgb_args_ok. exists r, g, b, a. left. auto.
  - rewrite parse_css_call by (vm_compute; discriminate). f_equal.
    transitivity (parse_rgb_args one read t true); [reflexivity|]. apply rgb_args_ok. exists r, g, b, a. right. auto.
  - rewrite parse_css_call by (vm_compute; discriminate). f_equal.
    transitivity (parse_hsl_args one read t false); [reflexivity|]. apply hsl_args_ok. exists h, s, l, one. auto.
  - rewrite parse_css_call by (vm_compute; discriminate). f_equal.
    transitivity (parse_hsl_args one read t true); [reflexivity|]. apply hsl_args_ok. exists h, s, l, a. auto.
Qed.

Lemma parse_css_ok s : exists r, parse_css one read s = Some r /\ forall c, r = Some c <-> css_text one read color_names s c.
Proof.
  assert (K : forall r, parse_css one read s = Some r -> (forall c, r = Some c -> css_text one read color_names s c) ->
    exists r, parse_css one read s = Some r /\ forall c, r = Some c <-> css_text one read color_names s c).
  { intros r E H. exists r. split; [exact E|]. intros c. split; [apply H|]. intros T. apply parse_css_complete in T. congruence. }
  destruct s as [|ch s].
  - destruct (find_by_name_ok []) as (v & E & X). apply (K (option_map CName v)).
    + cbn [parse_css]. rewrite E. reflexivity.
    + intros c H. destruct v as [i|]; [|discriminate]. cbn in H. injection H as <-. constructor. now apply X.
  - destruct (ch =? 35) eqn:E1; [|destruct (last (ch :: s) 0 =? 41) eqn:E2].
    + apply Z.eqb_eq in E1. subst ch. destruct (parse_hex_form_ok s) as (v & E & X). apply (K (option_map CHex v)).
      * cbn [parse_css]. change (35 =? 35) with true. cbv iota. rewrite E. reflexivity.
      * intros c H. destruct v as [x|]; [|discriminate]. cbn in H. injection H as <-. constructor. now apply X.
    + apply (K (parse_call one read (removelast (ch :: s)))).
      * unfold parse_css. rewrite E1, E2. reflexivity.
      * intros c H. apply parse_call_sound in H. apply Z.eqb_eq in E2. rewrite <- E2 in H.
        rewrite <- app_removelast_last in H by discriminate. exact H.
    + destruct (find_by_name_ok (ch :: s)) as (v & E & X). apply (K (option_map CName v)).
      * unfold parse_css. rewrite E1, E2, E. reflexivity.
      * intros c H. destruct v as [i|]; [|discriminate]. cbn in H. injection H as <-. constructor. now apply X.
Qed.

End Css.
