(* Proofs about the parser: every accepted string is in the grammar *)
From Coq Require Import List Arith Bool Lia.
From Verif Require Import CliPatternModel CliSpecModel CliRecorderModel CliRecorderSpec CliParserModel CliParserSpec CliLexerProofs ArrLib.
Import ListNotations.

Lemma rep_node_app nodes l i t : rep_node nodes i t -> rep_node (nodes ++ l) i t.
Proof.
  assert (H : forall i x, nth_error nodes i = Some x -> nth_error (nodes ++ l) i = Some x).
  { intros j x E. rewrite nth_error_app1; [easy|]. apply nth_error_Some. congruence. }
  induction 1; [eapply rn_leaf|eapply rn_opt|eapply rn_rep|eapply rn_jux|eapply rn_alt]; eauto.
Qed.

Lemma rep_node_unique nodes i t t' : rep_node nodes i t -> rep_node nodes i t' -> t = t'.
Proof.
  intros H. revert t'. induction H; intros t' H'; inversion H'; subst;
    match goal with A : nth_error nodes ?i = Some _, B : nth_error nodes ?i = Some _ |- _ => rewrite A in B; injection B; intros; subst end;
    try discriminate; try (match goal with l : leaf |- _ => destruct l; discriminate end).
  - destruct l, l0; cbn in *; try easy; now subst.
  - f_equal; auto.
  - f_equal; auto.
  - f_equal; auto.
  - f_equal; auto.
Qed.

Section Parser.
  Variable alnum : nat -> bool.
  Variable narrow : nat -> nat.
  Variable code : spec_code.
  Variable Lok : locale_ok alnum narrow.
  Notation extract_next_token := (extract_next_token alnum narrow code).
  Notation parse_alternatives := (parse_alternatives alnum narrow code).
  Notation alternatives_loop := (alternatives_loop alnum narrow code).
  Notation parse_juxtaposition := (parse_juxtaposition alnum narrow code).
  Notation juxtaposition_loop := (juxtaposition_loop alnum narrow code).
  Notation parse_repetition := (parse_repetition alnum narrow code).
  Notation repetition_loop := (repetition_loop alnum narrow code).
  Notation parse_element := (parse_element alnum narrow code).
  Notation lexes := (lexes alnum narrow).

  (* one step of each function *)
  Lemma alt_eq f z : parse_alternatives (S f) z = let* (z, i, p) := parse_juxtaposition f z in alternatives_loop f z i p.
  Proof. reflexivity. Qed.
  Lemma altl_eq f z i p : alternatives_loop (S f) z i p =
    match tk_type (z_next z) with
    | t_vertical_bar =>
      let* z := extract_next_token z in
      let* (z, j, _) := parse_juxtaposition f z in
      let (z, k) := push_node z (Node n_alternatives i j []) in
      alternatives_loop f z k 1
    | _ => POk (z, i, p)
    end.
  Proof. reflexivity. Qed.
  Lemma jux_eq f z : parse_juxtaposition (S f) z = let* (z, i, p) := parse_repetition f z in juxtaposition_loop f z i p.
  Proof. reflexivity. Qed.
  Lemma juxl_eq f z i p : juxtaposition_loop (S f) z i p =
    if negb (is_concat (tk_type (z_next z))) then POk (z, i, p)
    else if negb (tk_spaced (z_next z)) then parse_error code need_space
    else
      let* (z, j, _) := parse_repetition f z in
      let (z, k) := push_node z (Node n_juxtaposition i j []) in
      juxtaposition_loop f z k 2.
  Proof. reflexivity. Qed.
  Lemma rep_eq f z : parse_repetition (S f) z = let* (z, i, p) := parse_element f z in repetition_loop f z i p.
  Proof. reflexivity. Qed.
  Lemma repl_eq f z i p : repetition_loop (S f) z i p =
    match tk_type (z_next z) with
    | t_ellipsis =>
      let* z := extract_next_token z in
      let (z, k) := push_node z (Node n_repetition i 0 []) in
      repetition_loop f z k 3
    | _ => POk (z, i, p)
    end.
  Proof. reflexivity. Qed.
  Lemma elem_eq f z : parse_element (S f) z =
    match tk_type (z_next z) with
    | t_keyword => token_node alnum narrow code z n_keyword
    | t_short_option => token_node alnum narrow code z n_short_option
    | t_long_option => token_node alnum narrow code z n_long_option
    | t_value_slot => token_node alnum narrow code (Pstate (z_curr z) (z_next z) (z_nodes z) true) n_value_slot
    | t_left_sq_bracket =>
      let* z := extract_next_token z in
      let* (z, i, _) := parse_alternatives f z in
      match tk_type (z_next z) with
      | t_right_sq_bracket =>
        let* z := extract_next_token z in
        let (z, k) := push_node z (Node n_optionality i 0 []) in
        POk (z, k, 4)
      | _ => parse_error code unclosed_bracket
      end
    | t_left_parenthesis =>
      let* z := extract_next_token z in
      let* (z, i, _) := parse_alternatives f z in
      match tk_type (z_next z) with
      | t_right_parenthesis =>
        let* z := extract_next_token z in
        POk (z, i, 4)
      | _ => parse_error code unclosed_parenthesis
      end
    | _ => parse_error code bad_start
    end.
  Proof. reflexivity. Qed.

  (* the tokens ahead *)
  Definition ahead (z : pstate) (ts : list token) : Prop :=
    match ts with
    | [] => tk_type (z_next z) = t_end_of_input
    | tk :: ts => z_next z = tk /\ tk_type tk <> t_end_of_input /\ lexes (z_curr z) ts
    end.

  Definition size (z : pstate) : nat := match tk_type (z_next z) with t_end_of_input => 0 | _ => S (length (z_curr z)) end.

  Lemma lexes_inv s ts : lexes s ts ->
    match ts with
    | [] => exists n, s = repeat ch_space n
    | tk :: ts => exists n ty x r, s = repeat ch_space n ++ x ++ r /\ tk = Token ty x (0 <? n) /\ lexeme_of alnum narrow ty x r /\ lexes r ts
    end.
  Proof. intros [n|n ty x r ts' A B]; [now exists n|]. now exists n, ty, x, r. Qed.

  Lemma next_forth s ts nodes slot d : lexes s ts -> exists z', extract_next_token (Pstate s d nodes slot) = POk z' /\ ahead z' ts /\
    z_nodes z' = nodes /\ z_slot z' = slot.
  Proof.
    intros H. apply lexes_inv in H. unfold CliParserModel.extract_next_token. cbn [z_curr z_nodes z_slot].
    change (extract_again alnum narrow code (S (length s)) s false) with (next_token alnum narrow code s). destruct ts as [|tk ts].
    - destruct H as (n & ->). rewrite next_token_end by easy. cbn [pbind]. now eexists.
    - destruct H as (n & ty & x & r & -> & -> & A & B). rewrite (next_token_good alnum narrow code Lok n ty x r A). cbn [pbind]. eexists. split; [easy|]. cbn.
      split; [|easy]. split; [easy|]. split; [|easy]. now apply lexeme_start in A.
  Qed.

  Lemma adv_forth z tk ts : ahead z (tk :: ts) -> exists z', extract_next_token z = POk z' /\ ahead z' ts /\ z_nodes z' = z_nodes z /\ z_slot z' = z_slot z.
  Proof. destruct z as [s d nodes slot]. intros (_ & _ & H). now apply next_forth. Qed.

  Lemma next_back z z' : extract_next_token z = POk z' -> z_nodes z' = z_nodes z /\ z_slot z' = z_slot z /\
    (forall ts, ahead z' ts -> lexes (z_curr z) ts) /\ size z' <= length (z_curr z).
  Proof.
    unfold CliParserModel.extract_next_token. change (extract_again alnum narrow code (S (length (z_curr z))) (z_curr z) false) with (next_token alnum narrow code (z_curr z)).
    pose proof (next_token_result alnum narrow code Lok (z_curr z)) as H. destruct (next_token alnum narrow code (z_curr z)) as [[tk r]|c m|]; try easy.
    cbn [pbind]. injection 1 as <-. cbn. split; [easy|]. split; [easy|]. destruct H as [(A & -> & n & ->)|(n & ty & x & -> & -> & A)].
    - split; [|unfold size; cbn; rewrite A; lia]. intros [|t ts]; cbn; [intros _; constructor|]. intros (<- & N & _). easy.
    - pose proof (lexeme_start _ _ _ _ _ A) as (B & C & _). split.
      + intros [|t ts]; cbn; [easy|]. intros (<- & N & L). now constructor.
      + rewrite !app_length. unfold size. cbn. destruct x; [easy|]. cbn. destruct ty; lia.
  Qed.

  Lemma adv_back z z' : extract_next_token z = POk z' -> tk_type (z_next z) <> t_end_of_input ->
    z_nodes z' = z_nodes z /\ z_slot z' = z_slot z /\ (forall ts, ahead z' ts -> ahead z (z_next z :: ts)) /\ size z' < size z.
  Proof.
    intros H N. apply next_back in H. destruct H as (A & B & C & D). split; [easy|]. split; [easy|]. split.
    - intros ts H. cbn. auto.
    - unfold size at 2. destruct (tk_type (z_next z)); easy || lia.
  Qed.

  Lemma adv_ends z : match extract_next_token z with POk _ => True | PErr c _ => c = code | PBad => False end.
  Proof.
    unfold CliParserModel.extract_next_token. change (extract_again alnum narrow code (S (length (z_curr z))) (z_curr z) false) with (next_token alnum narrow code (z_curr z)).
    pose proof (next_token_result alnum narrow code Lok (z_curr z)) as H. now destruct (next_token alnum narrow code (z_curr z)) as [[tk r]|c m|].
  Qed.

  (* what is known about the nodes from z to z' *)
  Definition good (z z' : pstate) (i : nat) (t : ptree) : Prop :=
    (exists l, z_nodes z' = z_nodes z ++ l) /\ rep_node (z_nodes z') i t /\ z_slot z' = z_slot z || has_slot t.

  Definition same (z z' : pstate) : Prop := z_nodes z' = z_nodes z /\ z_slot z' = z_slot z.

  Lemma good_before z0 z z' i t : same z0 z -> good z z' i t -> good z0 z' i t.
  Proof. intros (A & B) (C & D & E). unfold good. rewrite <- A, <- B. easy. Qed.
  Lemma good_after z z' z1 i t : good z z' i t -> same z' z1 -> good z z1 i t.
  Proof. intros (C & D & E) (A & B). unfold good. rewrite A, B. easy. Qed.

  Lemma has_slot_two f a b : leaves f = leaves a ++ leaves b -> has_slot f = has_slot a || has_slot b.
  Proof. unfold has_slot. intros ->. apply existsb_app. Qed.

  Lemma rep_new (nodes : list node) nd : nth_error (nodes ++ [nd]) (length nodes) = Some nd.
  Proof. rewrite nth_error_app2, Nat.sub_diag by lia. easy. Qed.

  Lemma good_jux z z1 z2 i j a b z3 k : good z z1 i a -> good z1 z2 j b -> push_node z2 (Node n_juxtaposition i j []) = (z3, k) -> good z z3 k (PJux a b).
  Proof.
    intros ((l & A) & B & C) ((l' & A') & B' & C'). injection 1 as <- <-. split; [|split]; cbn.
    - exists (l ++ l' ++ [Node n_juxtaposition i j []]). now rewrite A', A, !app_assoc.
    - eapply rn_jux; [apply rep_new| |]; rewrite A' in *.
      + rewrite <- app_assoc. now apply rep_node_app.
      + now apply rep_node_app.
    - rewrite C', C, existsb_app. unfold has_slot. now rewrite orb_assoc.
  Qed.
  Lemma good_alt z z1 z2 i j a b z3 k : good z z1 i a -> good z1 z2 j b -> push_node z2 (Node n_alternatives i j []) = (z3, k) -> good z z3 k (PAlt a b).
  Proof.
    intros ((l & A) & B & C) ((l' & A') & B' & C'). injection 1 as <- <-. split; [|split]; cbn.
    - exists (l ++ l' ++ [Node n_alternatives i j []]). now rewrite A', A, !app_assoc.
    - eapply rn_alt; [apply rep_new| |]; rewrite A' in *.
      + rewrite <- app_assoc. now apply rep_node_app.
      + now apply rep_node_app.
    - rewrite C', C, existsb_app. unfold has_slot. now rewrite orb_assoc.
  Qed.
  Lemma good_rep z z1 i a z2 k : good z z1 i a -> push_node z1 (Node n_repetition i 0 []) = (z2, k) -> good z z2 k (PRep a).
  Proof.
    intros ((l & A) & B & C). injection 1 as <- <-. split; [|split]; cbn; [|eapply rn_rep; [apply rep_new|now apply rep_node_app]|exact C].
    exists (l ++ [Node n_repetition i 0 []]). now rewrite A, app_assoc.
  Qed.
  Lemma good_opt z z1 i a z2 k : good z z1 i a -> push_node z1 (Node n_optionality i 0 []) = (z2, k) -> good z z2 k (POpt a).
  Proof.
    intros ((l & A) & B & C). injection 1 as <- <-. split; [|split]; cbn; [|eapply rn_opt; [apply rep_new|now apply rep_node_app]|exact C].
    exists (l ++ [Node n_optionality i 0 []]). now rewrite A, app_assoc.
  Qed.
  Lemma good_leaf z z1 l z2 k ty : z_nodes z1 = z_nodes z -> z_slot z1 = z_slot z || is_slot_leaf l -> ty = leaf_type l ->
    push_node z1 (Node ty 0 0 (leaf_lexeme l)) = (z2, k) -> good z z2 k (PLeaf l).
  Proof.
    intros A C ->. injection 1 as <- <-. split; [|split]; cbn.
    - exists [Node (leaf_type l) 0 0 (leaf_lexeme l)]. now rewrite A.
    - eapply rn_leaf. apply rep_new.
    - rewrite C. cbn. now rewrite orb_false_r.
  Qed.

  (* Soundness *)
  Definition reads (G : list token -> ptree -> Prop) (z z' : pstate) (i : nat) (t : ptree) : Prop :=
    good z z' i t /\ forall ts, ahead z' ts -> exists w, ahead z (w ++ ts) /\ G w t.

  Definition g_alt_p (p : nat) (w : list token) (t : ptree) : Prop := g_alt w t /\ 1 <= p /\ (2 <= p -> g_jux w t).
  Definition g_jux_p (p : nat) (w : list token) (t : ptree) : Prop := g_jux w t /\ 2 <= p.
  Definition g_rep_p (p : nat) (w : list token) (t : ptree) : Prop := g_rep w t /\ 2 <= p.
  Definition g_elem_p (p : nat) (w : list token) (t : ptree) : Prop := g_elem w t /\ 2 <= p.

  Definition sound (P : nat -> list token -> ptree -> Prop) (f : pstate -> presult (pstate * nat * nat)) : Prop :=
    forall z z' i p, f z = POk (z', i, p) -> exists t, reads (P p) z z' i t.
  Definition sound_loop (P : nat -> list token -> ptree -> Prop) (f : pstate -> nat -> nat -> presult (pstate * nat * nat)) : Prop :=
    forall z0 z i p t z' i' p', reads (P p) z0 z i t -> f z i p = POk (z', i', p') -> exists t', reads (P p') z0 z' i' t'.

  Lemma pbind_inv {A B} (m : presult A) (k : A -> presult B) b : pbind m k = POk b -> exists a, m = POk a /\ k a = POk b.
  Proof. destruct m; cbn; [|discriminate|discriminate]. intros H. now exists a. Qed.

  Ltac binv H := apply pbind_inv in H; let a := fresh "r" in let E := fresh "E" in destruct H as (a & E & H).

  Lemma sound_token z z' i p ty (l : leaf) :
    leaf_type l = ty -> leaf_lexeme l = tk_lexeme (z_next z) -> tk_type (z_next z) <> t_end_of_input ->
    g_elem [z_next z] (PLeaf l) ->
    token_node alnum narrow code (Pstate (z_curr z) (z_next z) (z_nodes z) (z_slot z || is_slot_leaf l)) ty = POk (z', i, p) ->
    reads (g_elem_p p) z z' i (PLeaf l).
  Proof.
    intros T L N G H. unfold token_node in H. cbn [z_next] in H. binv H. apply adv_back in E; [|easy]. destruct E as (A & B & C & D).
    destruct (push_node r _) as [z2 k] eqn:Ep. injection H as <- <- <-. cbn in *. split.
    - eapply good_leaf; [exact A|exact B|now rewrite T|]. rewrite L. exact Ep.
    - intros ts Hts. exists [z_next z]. split; [|split; [exact G|lia]]. cbn. injection Ep as <- <-. apply (C ts). exact Hts.
  Qed.

  Lemma sound_all f :
    sound g_alt_p (parse_alternatives f) /\ sound_loop g_alt_p (alternatives_loop f) /\
    sound g_jux_p (parse_juxtaposition f) /\ sound_loop g_jux_p (juxtaposition_loop f) /\
    sound g_rep_p (parse_repetition f) /\ sound_loop g_rep_p (repetition_loop f) /\
    sound g_elem_p (parse_element f).
  Proof.
    induction f as [|f (Ia & Ial & Ij & Ijl & Ir & Irl & Ie)]; [repeat split; intros ?; intros; discriminate|].
    split; [|split; [|split; [|split; [|split; [|split]]]]].
    - intros z z' i p H. rewrite alt_eq in H. binv H. destruct r as [[z1 i1] p1]. apply Ij in E. destruct E as (t & E). eapply Ial; [|exact H].
      destruct E as (E1 & E2). split; [exact E1|]. intros ts Hts. destruct (E2 ts Hts) as (w & A & B & C). exists w. split; [exact A|].
      split; [now constructor|]. split; [lia|easy].
    - intros z0 z i p t z' i' p' R H. rewrite altl_eq in H. destruct (tk_type (z_next z)) eqn:Et; try (injection H as <- <- <-; now exists t).
      binv H. binv H. destruct r0 as [[z2 j] pj]. destruct (push_node z2 _) as [z3 k] eqn:Ep.
      apply adv_back in E; [|congruence]. destruct E as (A & B & C & _). apply Ij in E0. destruct E0 as (t2 & G2 & R2). destruct R as (G1 & R1).
      eapply Ial; [|exact H]. split.
      + eapply good_alt; [exact G1| |exact Ep]. eapply good_before; [|exact G2]. now split.
      + intros ts Hts. injection Ep as <- <-. destruct (R2 ts Hts) as (w2 & A2 & B2 & _). apply C in A2. destruct (R1 _ A2) as (w1 & A1 & B1 & _).
        exists (w1 ++ z_next z :: w2). rewrite <- app_assoc. split; [exact A1|]. split; [now constructor|]. split; lia.
    - intros z z' i p H. rewrite jux_eq in H. binv H. destruct r as [[z1 i1] p1]. apply Ir in E. destruct E as (t & E). eapply Ijl; [|exact H].
      destruct E as (E1 & E2). split; [exact E1|]. intros ts Hts. destruct (E2 ts Hts) as (w & A & B & C). exists w. split; [exact A|].
      split; [now constructor|easy].
    - intros z0 z i p t z' i' p' R H. rewrite juxl_eq in H. destruct (is_concat (tk_type (z_next z))) eqn:Et; cbn [negb] in H; [|injection H as <- <- <-; now exists t].
      destruct (tk_spaced (z_next z)) eqn:Es; cbn [negb] in H; [|discriminate].
      binv H. destruct r as [[z2 j] pj]. destruct (push_node z2 _) as [z3 k] eqn:Ep.
      apply Ir in E. destruct E as (t2 & G2 & R2). destruct R as (G1 & R1).
      eapply Ijl; [|exact H]. split.
      + eapply good_jux; [exact G1|exact G2|exact Ep].
      + intros ts Hts. injection Ep as <- <-. destruct (R2 ts Hts) as (w2 & A2 & B2 & _). destruct (R1 _ A2) as (w1 & A1 & B1 & _).
        exists (w1 ++ w2). rewrite <- app_assoc. split; [exact A1|]. split; [|lia].
        destruct w2 as [|c w2]; [exfalso; clear -B2; remember [] as w eqn:E; induction B2; [destruct H; discriminate|now destruct w]|].
        destruct A2 as (<- & _). now constructor.
    - intros z z' i p H. rewrite rep_eq in H. binv H. destruct r as [[z1 i1] p1]. apply Ie in E. destruct E as (t & E). eapply Irl; [|exact H].
      destruct E as (E1 & E2). split; [exact E1|]. intros ts Hts. destruct (E2 ts Hts) as (w & A & B & C). exists w. split; [exact A|].
      split; [now constructor|easy].
    - intros z0 z i p t z' i' p' R H. rewrite repl_eq in H. destruct (tk_type (z_next z)) eqn:Et; try (injection H as <- <- <-; now exists t).
      binv H. destruct (push_node r _) as [z3 k] eqn:Ep.
      apply adv_back in E; [|congruence]. destruct E as (A & B & C & _). destruct R as (G1 & R1).
      eapply Irl; [|exact H]. split.
      + eapply good_rep; [|exact Ep]. eapply good_after; [exact G1|]. now split.
      + intros ts Hts. injection Ep as <- <-. apply C in Hts. destruct (R1 _ Hts) as (w1 & A1 & B1 & _).
        exists (w1 ++ [z_next z]). rewrite <- app_assoc. split; [exact A1|]. split; [now constructor|lia].
    - intros z z' i p H. rewrite elem_eq in H. assert (Ez : Pstate (z_curr z) (z_next z) (z_nodes z) (z_slot z || false) = z) by (destruct z; cbn; now rewrite orb_false_r).
      assert (En : z_next z = Token (tk_type (z_next z)) (tk_lexeme (z_next z)) (tk_spaced (z_next z))) by now destruct (z_next z).
      destruct (tk_type (z_next z)) eqn:Et; try discriminate.
      + exists (PLeaf (LKeyword (tk_lexeme (z_next z)))). eapply sound_token; try easy; [congruence|rewrite En at 1; constructor|cbn; now rewrite Ez].
      + exists (PLeaf (LShort (tk_lexeme (z_next z)))). eapply sound_token; try easy; [congruence|rewrite En at 1; constructor|cbn; now rewrite Ez].
      + exists (PLeaf (LLong (tk_lexeme (z_next z)))). eapply sound_token; try easy; [congruence|rewrite En at 1; constructor|cbn; now rewrite Ez].
      + exists (PLeaf (LSlot (tk_lexeme (z_next z)))). eapply sound_token; try easy; [congruence|rewrite En at 1; constructor|cbn; now rewrite orb_true_r].
      + binv H. binv H. destruct r0 as [[z2 j] pj]. destruct (tk_type (z_next z2)) eqn:Et2; try discriminate. binv H.
        destruct (push_node r0 _) as [z3 k] eqn:Ep. injection H as <- <- <-.
        apply adv_back in E; [|congruence]. destruct E as (A & B & C & _). apply adv_back in E1; [|congruence]. destruct E1 as (A1 & B1 & C1 & _).
        apply Ia in E0. destruct E0 as (t2 & G2 & R2). exists (POpt t2). split.
        * eapply good_opt; [|exact Ep]. eapply good_after; [|split; [exact A1|exact B1]]. eapply good_before; [|exact G2]. now split.
        * intros ts Hts. injection Ep as <- <-. apply C1 in Hts. destruct (R2 _ Hts) as (w & A2 & B2 & _). apply C in A2.
          exists (z_next z :: w ++ [z_next z2]). cbn [app]. rewrite <- app_assoc. split; [exact A2|]. split; [now constructor|lia].
      + binv H. binv H. destruct r0 as [[z2 j] pj]. destruct (tk_type (z_next z2)) eqn:Et2; try discriminate. binv H.
        injection H as <- <- <-.
        apply adv_back in E; [|congruence]. destruct E as (A & B & C & _). apply adv_back in E1; [|congruence]. destruct E1 as (A1 & B1 & C1 & _).
        apply Ia in E0. destruct E0 as (t2 & G2 & R2). exists t2. split.
        * eapply good_after; [|split; [exact A1|exact B1]]. eapply good_before; [|exact G2]. now split.
        * intros ts Hts. apply C1 in Hts. destruct (R2 _ Hts) as (w & A2 & B2 & _). apply C in A2.
          exists (z_next z :: w ++ [z_next z2]). cbn [app]. rewrite <- app_assoc. split; [exact A2|]. split; [now apply g_parens|lia].
  Qed.

  (* Enough fuel *)
  Definition ends (P : pstate -> Prop) (r : presult (pstate * nat * nat)) : Prop :=
    match r with POk (z, _, _) => P z | PErr c _ => c = code | PBad => False end.

  Lemma ends_adv z (P : pstate -> Prop) k : tk_type (z_next z) <> t_end_of_input -> (forall z', size z' < size z -> ends P (k z')) ->
    ends P (let* z' := extract_next_token z in k z').
  Proof.
    intros N H. pose proof (adv_ends z) as A. destruct (extract_next_token z) as [z'|c m|] eqn:E; try easy. cbn [pbind].
    apply H. now apply adv_back in E.
  Qed.
  Lemma ends_bind (P Q : pstate -> Prop) r (k : pstate * nat * nat -> presult (pstate * nat * nat)) : ends Q r -> (forall z i p, Q z -> ends P (k (z, i, p))) ->
    ends P (let* x := r in k x).
  Proof. destruct r as [[[z i] p]|c m|]; cbn; auto. Qed.
  Lemma ends_weak (P Q : pstate -> Prop) r : (forall z, Q z -> P z) -> ends Q r -> ends P r.
  Proof. destruct r as [[[z i] p]|c m|]; cbn; auto. Qed.
  Lemma ends_token z ty : tk_type (z_next z) <> t_end_of_input -> ends (fun z' => size z' < size z) (token_node alnum narrow code z ty).
  Proof. intros N. unfold token_node. apply ends_adv; [easy|]. intros z' H. exact H. Qed.

  Lemma ends_all f :
    (forall z, 8 * size z + 7 <= f -> ends (fun z' => size z' < size z) (parse_alternatives f z)) /\
    (forall z i p, 8 * size z + 6 <= f -> ends (fun z' => size z' <= size z) (alternatives_loop f z i p)) /\
    (forall z, 8 * size z + 5 <= f -> ends (fun z' => size z' < size z) (parse_juxtaposition f z)) /\
    (forall z i p, 8 * size z + 4 <= f -> ends (fun z' => size z' <= size z) (juxtaposition_loop f z i p)) /\
    (forall z, 8 * size z + 3 <= f -> ends (fun z' => size z' < size z) (parse_repetition f z)) /\
    (forall z i p, 8 * size z + 2 <= f -> ends (fun z' => size z' <= size z) (repetition_loop f z i p)) /\
    (forall z, 8 * size z + 1 <= f -> ends (fun z' => size z' < size z) (parse_element f z)).
  Proof.
    induction f as [|f (Ia & Ial & Ij & Ijl & Ir & Irl & Ie)].
    { split; [|split; [|split; [|split; [|split; [|split]]]]]; intros; lia. }
    split; [|split; [|split; [|split; [|split; [|split]]]]]; intros z; intros.
    - rewrite alt_eq. eapply ends_bind; [apply Ij; lia|]. intros z1 i p Hz. cbv beta in Hz. eapply ends_weak; [|apply Ial; lia]. cbn. lia.
    - rewrite altl_eq. destruct (tk_type (z_next z)) eqn:Et; try (cbn; lia). apply ends_adv; [congruence|]. intros z1 Hz.
      eapply ends_bind; [apply Ij; lia|]. intros z2 j _ Hz2. change (size z2 < size z1) in Hz2. cbn [push_node].
      set (z3 := Pstate _ _ _ _). assert (E3 : size z3 = size z2) by easy.
      eapply ends_weak; [|apply Ial; lia]. cbn. lia.
    - rewrite jux_eq. eapply ends_bind; [apply Ir; lia|]. intros z1 i p Hz. cbv beta in Hz. eapply ends_weak; [|apply Ijl; lia]. cbn. lia.
    - rewrite juxl_eq. destruct (is_concat (tk_type (z_next z))) eqn:Et; cbn [negb]; [|cbn; lia]. destruct (tk_spaced (z_next z)); cbn [negb]; [|easy].
      eapply ends_bind; [apply Ir; lia|]. intros z2 j _ Hz2. cbv beta in Hz2. cbn [push_node].
      set (z3 := Pstate _ _ _ _). assert (E3 : size z3 = size z2) by easy.
      eapply ends_weak; [|apply Ijl; lia]. cbn. lia.
    - rewrite rep_eq. eapply ends_bind; [apply Ie; lia|]. intros z1 i p Hz. cbv beta in Hz. eapply ends_weak; [|apply Irl; lia]. cbn. lia.
    - rewrite repl_eq. destruct (tk_type (z_next z)) eqn:Et; try (cbn; lia). apply ends_adv; [congruence|]. intros z1 Hz. cbn [push_node].
      set (z3 := Pstate _ _ _ _). assert (E3 : size z3 = size z1) by easy.
      eapply ends_weak; [|apply Irl; lia]. cbn. lia.
    - rewrite elem_eq. destruct (tk_type (z_next z)) eqn:Et; try easy; try (apply ends_token; congruence).
      + change (size z) with (size (Pstate (z_curr z) (z_next z) (z_nodes z) true)). apply ends_token. cbn. congruence.
      + apply ends_adv; [congruence|]. intros z1 Hz. eapply ends_bind; [apply Ia; lia|]. intros z2 j _ Hz2. cbv beta in Hz2.
        destruct (tk_type (z_next z2)) eqn:Et2; try easy. apply ends_adv; [congruence|]. intros z3 Hz3. cbn [push_node ends].
        set (z4 := Pstate _ _ _ _). assert (E3 : size z4 = size z3) by easy. lia.
      + apply ends_adv; [congruence|]. intros z1 Hz. eapply ends_bind; [apply Ia; lia|]. intros z2 j _ Hz2. cbv beta in Hz2.
        destruct (tk_type (z_next z2)) eqn:Et2; try easy. apply ends_adv; [congruence|]. intros z3 Hz3. cbn [ends]. lia.
  Qed.

  (* More fuel changes nothing *)
  Lemma mono_bind {A B} (m m' : presult A) (k k' : A -> presult B) : (m <> PBad -> m' = m) -> (forall a, m = POk a -> k a <> PBad -> k' a = k a) ->
    pbind m k <> PBad -> pbind m' k' = pbind m k.
  Proof. intros H H'. destruct m; cbn; intros N; [rewrite H by easy; cbn; now apply H'|now rewrite H|easy]. Qed.

  Lemma mono_all f :
    (forall z, parse_alternatives f z <> PBad -> parse_alternatives (S f) z = parse_alternatives f z) /\
    (forall z i p, alternatives_loop f z i p <> PBad -> alternatives_loop (S f) z i p = alternatives_loop f z i p) /\
    (forall z, parse_juxtaposition f z <> PBad -> parse_juxtaposition (S f) z = parse_juxtaposition f z) /\
    (forall z i p, juxtaposition_loop f z i p <> PBad -> juxtaposition_loop (S f) z i p = juxtaposition_loop f z i p) /\
    (forall z, parse_repetition f z <> PBad -> parse_repetition (S f) z = parse_repetition f z) /\
    (forall z i p, repetition_loop f z i p <> PBad -> repetition_loop (S f) z i p = repetition_loop f z i p) /\
    (forall z, parse_element f z <> PBad -> parse_element (S f) z = parse_element f z).
  Proof.
    induction f as [|f (Ia & Ial & Ij & Ijl & Ir & Irl & Ie)].
    { split; [|split; [|split; [|split; [|split; [|split]]]]]; intros z; intros; easy. }
    Local Ltac more Ia := apply mono_bind; [first [apply Ia | easy]|]; intros ? _.
    split; [|split; [|split; [|split; [|split; [|split]]]]]; intros z; intros; revert H.
    - rewrite !alt_eq.       more Ij. destruct a as [[z1 i] p]. apply Ial.
    - rewrite !altl_eq. 
      destruct (tk_type (z_next z)); try easy. more I. more Ij. destruct a0 as [[z1 j] q]. cbn [push_node]. apply Ial.
    - rewrite !jux_eq.       more Ir. destruct a as [[z1 i] p]. apply Ijl.
    - rewrite !juxl_eq. 
      destruct (negb (is_concat (tk_type (z_next z)))); try easy. destruct (negb (tk_spaced (z_next z))); try easy.
      more Ir. destruct a as [[z1 j] q]. cbn [push_node]. apply Ijl.
    - rewrite !rep_eq.       more Ie. destruct a as [[z1 i] p]. apply Irl.
    - rewrite !repl_eq. 
      destruct (tk_type (z_next z)); try easy. more I. cbn [push_node]. apply Irl.
    - rewrite !elem_eq. 
      destruct (tk_type (z_next z)); try easy.
      + more I. more Ia. now destruct a0 as [[z1 i] p].
      + more I. more Ia. now destruct a0 as [[z1 i] p].
  Qed.
End Parser.
