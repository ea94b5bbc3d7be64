(* Proofs about the parser: sequences, and whole strings *)
From Coq Require Import List Arith Bool Lia.
From Verif Require Import CliPatternModel CliSpecModel CliRecorderModel CliRecorderSpec CliParserModel CliParserSpec CliLexerProofs CliParserProofs CliParserProofs2 ArrLib.
Import ListNotations.

Inductive rep_top (nodes : list node) : nat -> list ptree -> Prop :=
| rt_one : forall i t, rep_node nodes i t -> rep_top nodes i [t]
| rt_more : forall i j k x l t, nth_error nodes i = Some (Node n_sequence j k x) -> rep_top nodes j l -> rep_node nodes k t ->
    rep_top nodes i (l ++ [t]).

Lemma rep_top_app nodes m i l : rep_top nodes i l -> rep_top (nodes ++ m) i l.
Proof.
  induction 1; [constructor; now apply rep_node_app|]. eapply (rt_more _ _ _ k x); [|exact IHrep_top|now apply rep_node_app].
  rewrite nth_error_app1; [exact H|]. apply nth_error_Some. congruence.
Qed.

Lemma rep_node_type nodes i t : rep_node nodes i t -> exists nd, nth_error nodes i = Some nd /\ nd_type nd <> n_sequence.
Proof. destruct 1; eexists; (split; [eassumption|]); cbn; try discriminate. now destruct l. Qed.

Lemma rep_top_unique nodes i l l' : rep_top nodes i l -> rep_top nodes i l' -> l = l'.
Proof.
  intros H. revert l'. induction H; intros l' H'; inversion H'; subst.
  - f_equal. eapply rep_node_unique; eassumption.
  - apply rep_node_type in H. destruct H as (nd & E & N). rewrite E in H0. injection H0 as ->. easy.
  - apply rep_node_type in H2. destruct H2 as (nd & E & N). rewrite E in H. injection H as ->. easy.
  - rewrite H in H2. injection H2 as <- <- _. f_equal; [auto|]. f_equal. eapply rep_node_unique; eassumption.
Qed.

Lemma rep_top_nonempty nodes i l : rep_top nodes i l -> l <> [].
Proof. destruct 1; [easy|]. now destruct l. Qed.
Lemma g_seq_nonempty w l : g_seq w l -> l <> [] /\ starts w.
Proof.
  induction 1; [split; [easy|]; now apply grammar_starts in H|]. split; [now destruct l|]. apply starts_app. easy.
Qed.
Lemma g_seq_single w t : g_seq w [t] -> g_alt w t.
Proof.
  intros H. inversion H; subst; [easy|]. apply g_seq_nonempty in H1. destruct l as [|a [|b l]]; try discriminate. now destruct H1.
Qed.

Section Top.
  Variable alnum : nat -> bool.
  Variable narrow : nat -> nat.
  Variable code : spec_code.
  Variable Lok : locale_ok alnum narrow.
  Notation extract_next_token := (extract_next_token alnum narrow code).
  Notation parse_alternatives := (parse_alternatives alnum narrow code).
  Notation sequence_loop := (sequence_loop alnum narrow code).
  Notation parse_sequence := (parse_sequence alnum narrow code).
  Notation parse := (parse alnum narrow code).
  Notation reset := (reset alnum narrow code).
  Notation ahead := (ahead alnum narrow).
  Notation lexes := (lexes alnum narrow).

  Ltac binv H := apply pbind_inv in H; let a := fresh "r" in let E := fresh "E" in destruct H as (a & E & H).

  Lemma seql_eq f z i p : sequence_loop (S f) z i p =
    match tk_type (z_next z) with
    | t_comma =>
      let* z := extract_next_token z in
      let* (z, j, _) := parse_alternatives f z in
      let (z, k) := push_node z (Node n_sequence i j []) in
      sequence_loop f z k 0
    | _ => POk (z, i, p)
    end.
  Proof. reflexivity. Qed.

  Definition good_top (z z' : pstate) (i : nat) (l : list ptree) : Prop :=
    (exists m, z_nodes z' = z_nodes z ++ m) /\ rep_top (z_nodes z') i l /\ z_slot z' = z_slot z || existsb has_slot l.

  Lemma good_one z z' i t : good z z' i t -> good_top z z' i [t].
  Proof. intros (A & B & C). split; [easy|]. split; [now constructor|]. cbn. now rewrite orb_false_r. Qed.
  Lemma good_more z z1 z2 i j l b z3 k : good_top z z1 i l -> good z1 z2 j b -> push_node z2 (Node n_sequence i j []) = (z3, k) -> good_top z z3 k (l ++ [b]).
  Proof.
    intros ((m & A) & B & C) ((m' & A') & B' & C'). injection 1 as <- <-. split; [|split]; cbn.
    - exists (m ++ m' ++ [Node n_sequence i j []]). now rewrite A', A, !app_assoc.
    - eapply rt_more; [apply rep_new| |]; rewrite A' in *.
      + rewrite <- app_assoc. now apply rep_top_app.
      + now apply rep_node_app.
    - rewrite C', C, existsb_app. cbn. now rewrite orb_false_r, orb_assoc.
  Qed.

  (* how the precedence tells what was read *)
  Definition prec_ok (p : nat) (w : list token) (l : list ptree) : Prop :=
    match p with 0 => 2 <= length l | 1 => length l = 1 | _ => exists t, l = [t] /\ g_jux w t end.

  Lemma sound_seql f : forall z0 z i p z' i' p' l,
    good_top z0 z i l -> (forall ts, ahead z ts -> exists w, ahead z0 (w ++ ts) /\ g_seq w l /\ prec_ok p w l) ->
    sequence_loop f z i p = POk (z', i', p') ->
    exists l', good_top z0 z' i' l' /\ forall ts, ahead z' ts -> exists w, ahead z0 (w ++ ts) /\ g_seq w l' /\ prec_ok p' w l'.
  Proof.
    induction f; intros z0 z i p z' i' p' l G R H; [discriminate|]. rewrite seql_eq in H.
    destruct (tk_type (z_next z)) eqn:Et; try (injection H as <- <- <-; now exists l).
    binv H. binv H. destruct r0 as [[z2 j] pj]. destruct (push_node z2 _) as [z3 k] eqn:Ep.
    apply adv_back in E; [|easy|congruence]. destruct E as (A & B & C & _).
    apply (proj1 (sound_all alnum narrow code Lok f)) in E0. destruct E0 as (t2 & G2 & R2).
    eapply IHf; [| |exact H].
    - eapply good_more; [exact G| |exact Ep]. eapply good_before; [|exact G2]. now split.
    - intros ts Hts. injection Ep as <- <-. destruct (R2 ts Hts) as (w2 & A2 & B2 & _). apply C in A2. destruct (R _ A2) as (w1 & A1 & B1 & _).
      exists (w1 ++ z_next z :: w2). rewrite <- app_assoc. split; [exact A1|]. split; [now constructor|]. cbn. rewrite app_length. cbn.
      apply g_seq_nonempty in B1. destruct l; [easy|]. cbn. lia.
  Qed.

  Lemma sound_parse f z z' i p : parse f z = POk (z', i, p) ->
    exists l w, good_top z z' i l /\ ahead z w /\ g_seq w l /\ prec_ok p w l.
  Proof.
    intros H. unfold CliParserModel.parse in H. binv H. destruct r as [[z1 i1] p1]. destruct (tk_type (z_next z1)) eqn:Et; try discriminate.
    injection H as <- <- <-. unfold CliParserModel.parse_sequence in E. binv E. destruct r as [[z2 i2] p2].
    apply (proj1 (sound_all alnum narrow code Lok f)) in E0. destruct E0 as (t & G & R).
    destruct (sound_seql f z z2 i2 p2 z1 i1 p1 [t]) as (l & Gl & Rl); [now apply good_one| |easy|].
    - intros ts Hts. destruct (R ts Hts) as (w & A & B & C & D). exists w. split; [easy|]. split; [now constructor|].
      destruct p2 as [|[|p2]]; [lia|easy|]. exists t. split; [easy|]. apply D. lia.
    - destruct (Rl []) as (w & A & B & C); [exact Et|]. rewrite app_nil_r in A. now exists l, w.
  Qed.

  Lemma ends_seql f : forall z i p, 8 * size z + 8 <= f -> ends code (fun z' => size z' <= size z) (sequence_loop f z i p).
  Proof.
    induction f; intros z i p Hf; [lia|]. rewrite seql_eq. destruct (tk_type (z_next z)) eqn:Et; try (cbn; lia).
    apply ends_adv; [easy|congruence|]. intros z1 Hz. eapply ends_bind; [apply (ends_all alnum narrow code Lok); lia|].
    intros z2 j _ Hz2. cbv beta in Hz2. cbn [push_node]. set (z3 := Pstate _ _ _ _). assert (E3 : size z3 = size z2) by easy.
    eapply ends_weak; [|apply IHf; lia]. cbn. lia.
  Qed.
  Lemma ends_parse f z : 8 * size z + 8 <= f -> ends code (fun _ => True) (parse f z).
  Proof.
    intros Hf. unfold CliParserModel.parse. eapply ends_bind with (Q := fun _ => True).
    - unfold CliParserModel.parse_sequence. eapply ends_bind; [apply (ends_all alnum narrow code Lok); lia|]. intros z1 i p Hz. cbv beta in Hz.
      eapply ends_weak; [|apply ends_seql; lia]. easy.
    - intros z1 i p _. now destruct (tk_type (z_next z1)).
  Qed.

  Lemma mono_seql f : forall z i p, sequence_loop f z i p <> PBad -> sequence_loop (S f) z i p = sequence_loop f z i p.
  Proof.
    induction f; intros z i p; [easy|]. rewrite (seql_eq (S f)), (seql_eq f). destruct (tk_type (z_next z)); try easy.
    apply mono_bind; [easy|]. intros z1 _. apply mono_bind; [apply mono_all|]. intros [[z2 j] q] _. cbn [push_node]. apply IHf.
  Qed.
  Lemma mono_parse f z : parse f z <> PBad -> parse (S f) z = parse f z.
  Proof.
    unfold CliParserModel.parse, CliParserModel.parse_sequence. apply mono_bind; [|easy]. apply mono_bind; [apply mono_all|].
    intros [[z1 i] p] _. apply mono_seql.
  Qed.
  Lemma mono_parse_le f g z : f <= g -> parse f z <> PBad -> parse g z = parse f z.
  Proof. intros H N. induction H as [|g H IH]; [easy|]. rewrite mono_parse; [exact IH|]. now rewrite IH. Qed.

  Lemma seq_loops w l : g_seq w l -> forall z ts, ahead z (w ++ ts) -> stop3 (head_type ts) ->
    exists z' i p k f0, ahead z' ts /\ good_top z z' i l /\ forall n, f0 <= n -> parse_sequence (k + n) z = sequence_loop (k + n - k) z' i p.
  Proof.
    induction 1 as [w t G|w l c w' t G IH Hc G']; intros z ts A St.
    - destruct (alt_done alnum narrow code Lok w t G z ts A St) as (z' & i & p & f0 & B & C & _ & F).
      exists z', i, p, 0, f0. split; [easy|]. split; [now apply good_one|]. intros n Hn. unfold CliParserModel.parse_sequence. cbn [plus].
      rewrite F by easy. cbn [pbind]. now rewrite Nat.sub_0_r.
    - rewrite <- app_assoc in A. destruct (IH z _ A) as (z1 & i & p & k & f0 & A1 & G1 & F).
      { cbn. rewrite Hc. easy. }
      destruct (adv_forth alnum narrow code Lok z1 c _ A1) as (z2 & E2 & A2 & N2 & Sl2).
      destruct (alt_done alnum narrow code Lok w' t G' z2 ts A2 St) as (z3 & j & q & f1 & A3 & G3 & _ & F').
      destruct (push_node z3 (Node n_sequence i j [])) as [z4 m] eqn:Ep. exists z4, m, 0, (S k), (f0 + f1). split; [injection Ep as <- <-; exact A3|].
      split.
      + eapply good_more; [exact G1| |exact Ep]. eapply good_before; [|exact G3]. now split.
      + intros n Hn. replace (S k + n) with (k + S n) by lia. rewrite F by lia. replace (k + S n - k) with (S n) by lia.
        rewrite seql_eq, (proj1 A1), Hc, E2. cbn [pbind]. rewrite F' by lia. cbn [pbind]. rewrite Ep. f_equal. lia.
  Qed.

  Lemma complete_parse w l z : g_seq w l -> ahead z w -> exists z' i p f0, good_top z z' i l /\ forall n, f0 <= n -> parse n z = POk (z', i, p).
  Proof.
    intros G A. rewrite <- (app_nil_r w) in A. destruct (seq_loops w l G z [] A) as (z' & i & p & k & f0 & B & C & F); [easy|].
    exists z', i, p, (k + S f0). split; [easy|]. intros n Hn. unfold CliParserModel.parse. replace n with (k + S (n - k - 1)) by lia. rewrite F by lia.
    replace (k + S (n - k - 1) - k) with (S (n - k - 1)) by lia. rewrite seql_eq. cbn in B. rewrite B. cbn [pbind]. now rewrite B.
  Qed.
  Lemma complete_jux w t z : g_jux w t -> ahead z w -> exists z' i p f0, 2 <= p /\ forall n, f0 <= n -> parse n z = POk (z', i, p).
  Proof.
    intros G A. rewrite <- (app_nil_r w) in A. destruct (jux_done alnum narrow code Lok w t G z [] A) as (z' & i & p & f0 & B & C & D & F); [easy|].
    exists z', i, p, (S f0). split; [easy|]. intros [|n] Hn; [lia|]. unfold CliParserModel.parse, CliParserModel.parse_sequence. rewrite F by lia. cbn [pbind].
    rewrite seql_eq. cbn in B. rewrite B. cbn [pbind]. now rewrite B.
  Qed.

  (* a whole string *)
  Theorem reset_result s :
    match reset s with
    | POk (z, b) => z_nodes z = [] /\ z_slot z = false /\ size z <= length s /\ (forall ts, ahead z ts <-> lexes s ts) /\ (b = false <-> lexes s [])
    | PErr c _ => c = code /\ forall ts, ~ lexes s ts
    | PBad => False
    end.
  Proof.
    unfold CliParserModel.reset. set (z0 := Pstate s _ [] false). pose proof (adv_ends alnum narrow code Lok z0) as A.
    destruct (extract_next_token z0) as [z|c m|] eqn:E; [| |easy]; cbn [pbind].
    - pose proof (next_back alnum narrow code Lok z0 z E) as (B & C & D & F). cbn in B, C, D, F.
      assert (X : forall ts, ahead z ts <-> lexes s ts).
      { intros ts. split; [apply D|]. intros H. destruct (next_forth alnum narrow code Lok s ts [] false (Token t_end_of_input [] false) H) as (z' & E' & A' & _).
        change (Pstate s _ [] false) with z0 in E'. congruence. }
      split; [easy|]. split; [easy|]. split; [easy|]. split; [exact X|].
      rewrite <- X. cbn. now destruct (tk_type (z_next z)).
    - split; [easy|]. intros ts H. destruct (next_forth alnum narrow code Lok s ts [] false (Token t_end_of_input [] false) H) as (z' & E' & _).
      change (Pstate s _ [] false) with z0 in E'. congruence.
  Qed.

  Theorem parse_result s z f : reset s = POk (z, true) -> 8 * length s + 8 <= f ->
    match parse f z with
    | POk (z', i, p) => (exists ts l, lexes s ts /\ g_seq ts l /\ rep_top (z_nodes z') i l /\ z_slot z' = existsb has_slot l /\ prec_ok p ts l) /\
        (forall ts l, lexes s ts -> g_seq ts l -> rep_top (z_nodes z') i l) /\
        (forall ts t, lexes s ts -> g_jux ts t -> 2 <= p)
    | PErr c _ => c = code /\ forall ts l, lexes s ts -> ~ g_seq ts l
    | PBad => False
    end /\ forall g, f <= g -> parse g z = parse f z.
  Proof.
    intros R Hf. pose proof (reset_result s) as H. rewrite R in H. destruct H as (N & Sl & Sz & X & _).
    pose proof (ends_parse f z ltac:(lia)) as Nb.
    assert (M : forall g, f <= g -> parse g z = parse f z). { intros g Hg. apply mono_parse_le; [easy|]. intros Eb. now rewrite Eb in Nb. }
    split; [|exact M]. destruct (parse f z) as [[[z' i] p]|c m|] eqn:E; [| |easy].
    - split; [|split].
      + destruct (sound_parse f z z' i p E) as (l & w & (_ & G1 & G2) & B & C & D). exists w, l. rewrite Sl in G2. rewrite <- X. easy.
      + intros ts l L G. apply X in L. destruct (complete_parse ts l z G L) as (z2 & i2 & p2 & f0 & (_ & G1 & _) & F).
        pose proof (M (f + f0) ltac:(lia)) as M1. rewrite F in M1 by lia. injection M1 as -> -> ->. easy.
      + intros ts t L G. apply X in L. destruct (complete_jux ts t z G L) as (z2 & i2 & p2 & f0 & G1 & F).
        pose proof (M (f + f0) ltac:(lia)) as M1. rewrite F in M1 by lia. injection M1 as -> -> ->. easy.
    - split; [easy|]. intros ts l L G. apply X in L. destruct (complete_parse ts l z G L) as (z2 & i2 & p2 & f0 & G1 & F).
      pose proof (M (f + f0) ltac:(lia)) as M1. rewrite F in M1 by lia. discriminate.
  Qed.
End Top.

(* Lexemes of options have at least two characters *)
Definition token_ok (tk : token) : Prop := match tk_type tk with t_short_option | t_long_option => 2 <= length (tk_lexeme tk) | _ => True end.

Lemma lexes_ok alnum narrow s ts : lexes alnum narrow s ts -> Forall token_ok ts.
Proof. induction 1; constructor; [|easy]. destruct H; cbn; try easy; lia. Qed.

Lemma grammar_ok :
  (forall w t, g_elem w t -> Forall token_ok w -> Forall leaf_ok (leaves t)) /\ (forall w t, g_rep w t -> Forall token_ok w -> Forall leaf_ok (leaves t)) /\
  (forall w t, g_jux w t -> Forall token_ok w -> Forall leaf_ok (leaves t)) /\ (forall w t, g_alt w t -> Forall token_ok w -> Forall leaf_ok (leaves t)).
Proof.
  apply grammar_ind; cbn [leaves]; try (intros; constructor; [cbn; inversion H; subst; easy|constructor]); try easy.
  - intros l r w t A B G IH H. inversion H; subst. apply Forall_app in H3. now apply IH.
  - intros l r w t A B G IH H. inversion H; subst. apply Forall_app in H3. now apply IH.
  - intros w t e E G IH H. apply Forall_app in H. now apply IH.
  - intros w t c w' t' G IH Hc G' IH' H. apply Forall_app in H. apply Forall_app. split; [now apply IH|now apply IH'].
  - intros w t c w' t' G IH Hc G' IH' H. apply Forall_app in H. destruct H as (H1 & H2). inversion H2; subst. apply Forall_app. split; [now apply IH|now apply IH'].
Qed.
