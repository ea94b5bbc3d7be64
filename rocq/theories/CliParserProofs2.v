(* Proofs about the parser: every string in the grammar is accepted *)
From Coq Require Import List Arith Bool Lia.
From Verif Require Import CliPatternModel CliSpecModel CliRecorderModel CliRecorderSpec CliParserModel CliParserSpec CliLexerProofs CliParserProofs ArrLib.
Import ListNotations.

Scheme g_elem_mind := Induction for g_elem Sort Prop
  with g_rep_mind := Induction for g_rep Sort Prop
  with g_jux_mind := Induction for g_jux Sort Prop
  with g_alt_mind := Induction for g_alt Sort Prop.
Combined Scheme grammar_ind from g_elem_mind, g_rep_mind, g_jux_mind, g_alt_mind.

Definition starts (w : list token) : Prop := match w with c :: _ => is_concat (tk_type c) = true | [] => False end.

Lemma starts_app w w' : starts w -> starts (w ++ w').
Proof. now destruct w. Qed.

Lemma grammar_starts :
  (forall w t, g_elem w t -> starts w) /\ (forall w t, g_rep w t -> starts w) /\ (forall w t, g_jux w t -> starts w) /\ (forall w t, g_alt w t -> starts w).
Proof.
  apply grammar_ind; intros; try easy; try (now apply starts_app); cbn.
  - now rewrite e.
  - now rewrite e.
Qed.

Section Complete.
  Variable alnum : nat -> bool.
  Variable narrow : nat -> nat.
  Variable code : spec_code.
  Variable Lok : locale_ok alnum narrow.
  Notation extract_next_token := (extract_next_token alnum narrow code).
  Notation parse_alternatives := (parse_alternatives alnum narrow code).
  Notation alternatives_loop := (alternatives_loop alnum narrow code).
  Notation parse_juxtaposition := (parse_juxtaposition alnum narrow code).
  Notation juxtaposition_loop := (juxtaposition_loop alnum narrow code).
  Notation parse_repetition := (parse_repetition alnum narrow code).
  Notation repetition_loop := (repetition_loop alnum narrow code).
  Notation parse_element := (parse_element alnum narrow code).
  Notation ahead := (ahead alnum narrow).

  Definition head_type (ts : list token) : token_type := match ts with tk :: _ => tk_type tk | [] => t_end_of_input end.
  Lemma ahead_head z ts : ahead z ts -> tk_type (z_next z) = head_type ts.
  Proof. destruct ts; cbn; [easy|]. now intros (-> & _). Qed.

  Definition is_ellipsis (t : token_type) : bool := match t with t_ellipsis => true | _ => false end.
  Definition is_bar (t : token_type) : bool := match t with t_vertical_bar => true | _ => false end.

  (* the function reads the words of the grammar, when followed by something suitable *)
  Definition done (stop : token_type -> Prop) (pmin : nat) (f : nat -> pstate -> presult (pstate * nat * nat)) (w : list token) (t : ptree) : Prop :=
    forall z ts, ahead z (w ++ ts) -> stop (head_type ts) ->
    exists z' i p f0, ahead z' ts /\ good z z' i t /\ pmin <= p /\ forall n, f0 <= n -> f n z = POk (z', i, p).
  Definition loops (stop : token_type -> Prop) (pmin : nat) (f : nat -> pstate -> presult (pstate * nat * nat)) (l : nat -> pstate -> nat -> nat -> presult (pstate * nat * nat))
    (w : list token) (t : ptree) : Prop :=
    forall z ts, ahead z (w ++ ts) -> stop (head_type ts) ->
    exists z' i p k f0, ahead z' ts /\ good z z' i t /\ pmin <= p /\ forall n, f0 <= n -> f (k + n) z = l n z' i p.

  Definition stop0 (t : token_type) : Prop := True.
  Definition stop1 (t : token_type) : Prop := is_ellipsis t = false.
  Definition stop2 (t : token_type) : Prop := is_ellipsis t = false /\ is_concat t = false.
  Definition stop3 (t : token_type) : Prop := stop2 t /\ is_bar t = false.

  Lemma done_rep w t : loops stop0 2 parse_repetition repetition_loop w t -> done stop1 2 parse_repetition w t.
  Proof.
    intros H z ts A B. destruct (H z ts A I) as (z' & i & p & k & f0 & C & D & E & F). exists z', i, p, (k + S f0). split; [easy|]. split; [easy|]. split; [easy|].
    intros n Hn. replace n with (k + S (n - k - 1)) by lia. rewrite F by lia. rewrite repl_eq, (ahead_head z' ts C).
    unfold stop1 in B. now destruct (head_type ts).
  Qed.
  Lemma done_jux w t : loops stop1 2 parse_juxtaposition juxtaposition_loop w t -> done stop2 2 parse_juxtaposition w t.
  Proof.
    intros H z ts A (B1 & B2). destruct (H z ts A B1) as (z' & i & p & k & f0 & C & D & E & F). exists z', i, p, (k + S f0). split; [easy|]. split; [easy|]. split; [easy|].
    intros n Hn. replace n with (k + S (n - k - 1)) by lia. rewrite F by lia. rewrite juxl_eq, (ahead_head z' ts C). now rewrite B2.
  Qed.
  Lemma done_alt w t : loops stop2 1 parse_alternatives alternatives_loop w t -> done stop3 1 parse_alternatives w t.
  Proof.
    intros H z ts A (B1 & B2). destruct (H z ts A B1) as (z' & i & p & k & f0 & C & D & E & F). exists z', i, p, (k + S f0). split; [easy|]. split; [easy|]. split; [easy|].
    intros n Hn. replace n with (k + S (n - k - 1)) by lia. rewrite F by lia. rewrite altl_eq, (ahead_head z' ts C).
    now destruct (head_type ts).
  Qed.
  (* the precedence of a juxtaposition on its own *)
  Lemma done_alt_jux w t : loops stop1 2 parse_juxtaposition juxtaposition_loop w t -> done stop3 2 parse_alternatives w t.
  Proof.
    intros H z ts A (B1 & B2). destruct (done_jux w t H z ts A B1) as (z' & i & p & f0 & C & D & E & F). exists z', i, p, (2 + f0). split; [easy|]. split; [easy|]. split; [easy|].
    intros [|[|n]] Hn; try lia. rewrite alt_eq, F by lia. cbn [pbind]. rewrite altl_eq, (ahead_head z' ts C).
    now destruct (head_type ts).
  Qed.

  Lemma done_token z tk ts l ty slot : ahead z (tk :: ts) -> leaf_type l = ty -> leaf_lexeme l = tk_lexeme tk -> slot = z_slot z || is_slot_leaf l ->
    exists z' i, ahead z' ts /\ good z z' i (PLeaf l) /\ token_node alnum narrow code (Pstate (z_curr z) (z_next z) (z_nodes z) slot) ty = POk (z', i, 4).
  Proof.
    intros A T L S. pose proof A as (An & _ & Al). unfold token_node. cbn [z_next].
    destruct (next_forth alnum narrow code Lok (z_curr z) ts (z_nodes z) slot (z_next z) Al) as (z1 & -> & B & C & D). cbn [pbind].
    destruct (push_node z1 _) as [z2 k] eqn:Ep. exists z2, k. split; [|split; [|easy]].
    - injection Ep as <- <-. exact B.
    - eapply good_leaf; [exact C|now rewrite D|symmetry; exact T|]. rewrite L, <- An. exact Ep.
  Qed.

  Lemma complete_all :
    (forall w t, g_elem w t -> done stop0 2 parse_element w t) /\
    (forall w t, g_rep w t -> loops stop0 2 parse_repetition repetition_loop w t) /\
    (forall w t, g_jux w t -> loops stop1 2 parse_juxtaposition juxtaposition_loop w t) /\
    (forall w t, g_alt w t -> loops stop2 1 parse_alternatives alternatives_loop w t).
  Proof.
    apply grammar_ind.
    Local Ltac tok z ts A l ty := destruct (done_token z _ ts l ty (z_slot z || is_slot_leaf l) A eq_refl eq_refl eq_refl) as (z' & i & B & C & D).
    - intros x b z ts A _. tok z ts A (LKeyword x) n_keyword. exists z', i, 4, 1. split; [easy|]. split; [easy|]. split; [lia|].
      intros [|n] Hn; [lia|]. rewrite elem_eq. rewrite (proj1 A) at 1. cbn [tk_type]. rewrite <- D. destruct z; cbn. now rewrite orb_false_r.
    - intros x b z ts A _. tok z ts A (LShort x) n_short_option. exists z', i, 4, 1. split; [easy|]. split; [easy|]. split; [lia|].
      intros [|n] Hn; [lia|]. rewrite elem_eq. rewrite (proj1 A) at 1. cbn [tk_type]. rewrite <- D. destruct z; cbn. now rewrite orb_false_r.
    - intros x b z ts A _. tok z ts A (LLong x) n_long_option. exists z', i, 4, 1. split; [easy|]. split; [easy|]. split; [lia|].
      intros [|n] Hn; [lia|]. rewrite elem_eq. rewrite (proj1 A) at 1. cbn [tk_type]. rewrite <- D. destruct z; cbn. now rewrite orb_false_r.
    - intros x b z ts A _. tok z ts A (LSlot x) n_value_slot. exists z', i, 4, 1. split; [easy|]. split; [easy|]. split; [lia|].
      intros [|n] Hn; [lia|]. rewrite elem_eq. rewrite (proj1 A) at 1. cbn [tk_type]. rewrite <- D. destruct z; cbn. now rewrite orb_true_r.
    - intros l r w t El Er G IH z ts A _. apply done_alt in IH. cbn [app] in A. rewrite <- app_assoc in A.
      destruct (adv_forth alnum narrow code Lok z l _ A) as (z1 & E1 & A1 & N1 & S1).
      destruct (IH z1 ([r] ++ ts) A1) as (z2 & i & p & f0 & A2 & G2 & _ & F).
      { cbn. rewrite Er. easy. }
      destruct (adv_forth alnum narrow code Lok z2 r _ A2) as (z3 & E3 & A3 & N3 & S3).
      destruct (push_node z3 (Node n_optionality i 0 [])) as [z4 k] eqn:Ep. exists z4, k, 4, (S f0). split; [injection Ep as <- <-; exact A3|].
      split; [|split; [lia|]].
      + eapply good_opt; [|exact Ep]. eapply good_after; [|split; [exact N3|exact S3]]. eapply good_before; [|exact G2]. now split.
      + intros [|n] Hn; [lia|]. rewrite elem_eq, (proj1 A), El, E1. cbn [pbind]. rewrite F by lia. cbn [pbind].
        rewrite (proj1 A2), Er, E3. cbn [pbind]. now rewrite Ep.
    - intros l r w t El Er G IH z ts A _. apply done_alt in IH. cbn [app] in A. rewrite <- app_assoc in A.
      destruct (adv_forth alnum narrow code Lok z l _ A) as (z1 & E1 & A1 & N1 & S1).
      destruct (IH z1 ([r] ++ ts) A1) as (z2 & i & p & f0 & A2 & G2 & _ & F).
      { cbn. rewrite Er. easy. }
      destruct (adv_forth alnum narrow code Lok z2 r _ A2) as (z3 & E3 & A3 & N3 & S3).
      exists z3, i, 4, (S f0). split; [exact A3|].
      split; [|split; [lia|]].
      + eapply good_after; [|split; [exact N3|exact S3]]. eapply good_before; [|exact G2]. now split.
      + intros [|n] Hn; [lia|]. rewrite elem_eq, (proj1 A), El, E1. cbn [pbind]. rewrite F by lia. cbn [pbind].
        rewrite (proj1 A2), Er, E3. easy.
    - intros w t G IH z ts A _. destruct (IH z ts A I) as (z' & i & p & f0 & B & C & D & E). exists z', i, p, 1, f0.
      split; [easy|]. split; [easy|]. split; [easy|]. intros n Hn. cbn [plus]. rewrite rep_eq, E by easy. easy.
    - intros w t e Ee G IH z ts A _. rewrite <- app_assoc in A. destruct (IH z _ A I) as (z1 & i & p & k & f0 & A1 & G1 & _ & F).
      destruct (adv_forth alnum narrow code Lok z1 e _ A1) as (z2 & E2 & A2 & N2 & S2).
      destruct (push_node z2 (Node n_repetition i 0 [])) as [z3 q] eqn:Ep. exists z3, q, 3, (S k), f0. split; [injection Ep as <- <-; exact A2|].
      split; [|split; [lia|]].
      + eapply good_rep; [|exact Ep]. eapply good_after; [exact G1|]. now split.
      + intros n Hn. replace (S k + n) with (k + S n) by lia. rewrite F by lia. rewrite repl_eq, (proj1 A1), Ee, E2. cbn [pbind]. now rewrite Ep.
    - intros w t G IH z ts A S1. apply done_rep in IH. destruct (IH z ts A S1) as (z' & i & p & f0 & B & C & D & E). exists z', i, p, 1, f0.
      split; [easy|]. split; [easy|]. split; [easy|]. intros n Hn. cbn [plus]. rewrite jux_eq, E by easy. easy.
    - intros w t c w' t' G IH Hs G' IH' z ts A S1. rewrite <- app_assoc in A. pose proof (proj1 (proj2 grammar_starts) _ _ G') as Hc. cbn in Hc.
      destruct (IH z _ A) as (z1 & i & p & k & f0 & A1 & G1 & _ & F).
      { cbn. unfold stop1. now destruct (tk_type c). }
      apply done_rep in IH'. destruct (IH' z1 ts A1 S1) as (z2 & j & q & f1 & A2 & G2 & _ & F').
      destruct (push_node z2 (Node n_juxtaposition i j [])) as [z3 m] eqn:Ep. exists z3, m, 2, (S k), (f0 + f1). split; [injection Ep as <- <-; exact A2|].
      split; [|split; [lia|]].
      + eapply good_jux; [exact G1|exact G2|exact Ep].
      + intros n Hn. replace (S k + n) with (k + S n) by lia. rewrite F by lia. rewrite juxl_eq, (proj1 A1), Hc, Hs. cbn [negb].
        rewrite F' by lia. cbn [pbind]. now rewrite Ep.
    - intros w t G IH z ts A S2. apply done_jux in IH. destruct (IH z ts A S2) as (z' & i & p & f0 & B & C & D & E). exists z', i, p, 1, f0.
      split; [easy|]. split; [easy|]. split; [lia|]. intros n Hn. cbn [plus]. rewrite alt_eq, E by easy. easy.
    - intros w t c w' t' G IH Hc G' IH' z ts A S2. rewrite <- app_assoc in A.
      destruct (IH z _ A) as (z1 & i & p & k & f0 & A1 & G1 & _ & F).
      { cbn. rewrite Hc. easy. }
      destruct (adv_forth alnum narrow code Lok z1 c _ A1) as (z2 & E2 & A2 & N2 & Sl2).
      apply done_jux in IH'. destruct (IH' z2 ts A2 S2) as (z3 & j & q & f1 & A3 & G3 & _ & F').
      destruct (push_node z3 (Node n_alternatives i j [])) as [z4 m] eqn:Ep. exists z4, m, 1, (S k), (f0 + f1). split; [injection Ep as <- <-; exact A3|].
      split; [|split; [lia|]].
      + eapply good_alt; [exact G1| |exact Ep]. eapply good_before; [|exact G3]. now split.
      + intros n Hn. replace (S k + n) with (k + S n) by lia. rewrite F by lia. rewrite altl_eq, (proj1 A1), Hc, E2. cbn [pbind].
        rewrite F' by lia. cbn [pbind]. now rewrite Ep.
  Qed.

  Lemma alt_done w t : g_alt w t -> done stop3 1 parse_alternatives w t.
  Proof. intros H. apply done_alt. now apply complete_all. Qed.
  Lemma jux_done w t : g_jux w t -> done stop3 2 parse_alternatives w t.
  Proof. intros H. apply done_alt_jux. now apply complete_all. Qed.
End Complete.
