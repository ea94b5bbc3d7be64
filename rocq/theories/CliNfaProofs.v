(* The NFA accepts exactly what the patterns match. *)
From Coq Require Import List Arith Bool Lia Sorted.
From Verif Require Import CliPatternModel CliPatternSpec CliGlushkov CliTreeProofs CliBuilderProofs ArrLib.
Import ListNotations.

Definition size (q : tseq) : nat := length (seq_syms q).

Lemma register_starts_ok ps l : forall n r, denotes ps r l ->
  exists n', register_starts (length l) n ps (fst r) = Some n' /\ n_positions n' = n_positions n /\
    (forall p, In p (n_start n') <-> In p (n_start n) \/ In p l) /\ (incr (n_start n) -> incr (n_start n')).
Proof.
  induction l as [|x l IH]; intros n r Hd; cbn [length register_starts].
  - exists n. cbn [In]. intuition.
  - pose proof (denotes_nth ps r (x :: l) 0 x Hd eq_refl) as Hn. rewrite Nat.add_0_r in Hn. rewrite Hn. cbn [obind].
    destruct (IH (register_startpos n x) (S (fst r), snd r) (denotes_tail ps r x l Hd)) as (n' & E & A & B & C).
    exists n'. split; [exact E|]. split; [exact A|]. split.
    + intros p. rewrite B. unfold register_startpos. cbn [n_start]. rewrite set_insert_in. cbn [In]. intuition.
    + intros H. apply C. unfold register_startpos. cbn [n_start]. now apply set_insert_incr.
Qed.

Lemma register_1_ok pi ps pos l : forall n r, denotes ps r l -> (forall p, In p l -> p < length (n_positions n)) ->
  exists n', register_followpos_1 (length l) n ps (fst r) pos = Some n' /\ extends pi n n' [] (map (fun p => (p, pos)) l).
Proof.
  induction l as [|x l IH]; intros n r Hd Hp; cbn [length register_followpos_1 map].
  - exists n. split; [reflexivity|apply extends_refl].
  - pose proof (denotes_nth ps r (x :: l) 0 x Hd eq_refl) as Hn. rewrite Nat.add_0_r in Hn. rewrite Hn. cbn [obind].
    destruct (register_follow_ok pi n x pos) as (n1 & -> & E1); [apply Hp; now left|]. cbn [obind].
    destruct (IH n1 (S (fst r), snd r)) as (n2 & E & E2).
    + now apply (denotes_tail ps r x).
    + intros p Hi. rewrite (extends_length _ _ _ _ _ E1). cbn [length]. rewrite Nat.add_0_r. apply Hp. now right.
    + exists n2. split; [exact E|]. exact (extends_trans pi n n1 n2 [] [] _ _ E1 E2).
Qed.

Lemma follow_positions n n' p : n_positions n' = n_positions n -> follow n' p = follow n p.
Proof. intros H. unfold follow. now rewrite H. Qed.

Lemma info_positions n n' : n_positions n' = n_positions n -> info n' = info n.
Proof. intros H. unfold info. now rewrite H. Qed.

Lemma add_pattern_ok st pi n i q : rep_pattern st i q ->
  let base := length (n_positions n) in let r := re_seq Eps q base in let term := base + size q in
  forall fuel, qsteps q < fuel ->
  exists n', add_pattern st pi fuel n i = Some n' /\
    info n' = info n ++ map (pair pi) (seq_syms q) ++ [(pi, (size q, dummy_symbol))] /\
    (forall p, In p (n_start n') <-> In p (n_start n) \/ In p (gfirst r) \/ (gnull r = true /\ p = term)) /\
    (forall x y, In y (follow n' x) <-> In y (follow n x) \/ In (x, y) (gfol r) \/ (In x (glast r) /\ y = term)) /\
    (nfa_incr n -> nfa_incr n') /\ (incr (n_start n) -> incr (n_start n')).
Proof.
  intros (Hr & Hnum & sq & Hsq & Hend) base r term. inversion Hr as [? sq' ? S1 S2 S3]; subst.
  assert (sq' = sq) by congruence. subst sq'.
  intros fuel Hf. unfold add_pattern, init_seq. rewrite Hsq. cbn [obind].
  destruct (proj1 (proj2 (loop_ok st pi)) q sq 0 (q_num_elems sq) (Result (0, 0) (0, 0) true) [] n [] Eps base (fuel - qsteps q))
    as (n1 & more & res & pairs & E & Ex1 & R & P).
  { now rewrite Nat.add_0_r. } { lia. } { repeat split; cbn; apply denotes_nil. } { reflexivity. }
  replace (qsteps q + (fuel - qsteps q)) with fuel in E by lia. rewrite E.
  destruct (fuel - qsteps q) as [|fuel'] eqn:Ef; [lia|]. cbn [build_loop]. rewrite Nat.ltb_irrefl.
  fold base in R, P. change (re_seq Eps q base) with r in R, P. destruct R as (Ra & Rb & Rn). rewrite Rn.
  rewrite (eqb_refl_iff _ _ (m_seq q []) (seq_nullable q base : gnull r = true <-> _) S3). cbn [obind].
  pose proof (extends_length _ _ _ _ _ Ex1) as Len. fold base in Len. change (length (seq_syms q)) with (size q) in Len.
  rewrite (denotes_count _ _ _ Ra).
  destruct (register_starts_ok ([] ++ more) (gfirst r) n1 (r_first res) Ra) as (n2 & -> & A2 & B2 & C2). cbn [obind].
  rewrite Hend. change (length (seq_syms q)) with (size q). pose proof (create_extends pi n2 (size q) dummy_symbol) as Ex3.
  destruct (create_position n2 pi (size q) dummy_symbol) as [n3 tp] eqn:Ec. cbn [fst] in Ex3.
  assert (tp = term) by (unfold create_position in Ec; injection Ec as _ <-; rewrite A2, Len; reflexivity). subst tp.
  rewrite Rn. set (n4 := if gnull r then register_startpos n3 term else n3).
  assert (A4 : n_positions n4 = n_positions n3) by (unfold n4; destruct (gnull r); reflexivity).
  pose proof (extends_length _ _ _ _ _ Ex3) as Len3. cbn [length] in Len3.
  unfold register_followpos_set_pos. rewrite (denotes_count _ _ _ Rb).
  assert (Wf : wf base r term) by apply re_seq_wf.
  destruct (register_1_ok pi ([] ++ more) term (glast r) n4 (r_last res) Rb) as (n5 & -> & Ex5).
  { intros p Hp. apply (glast_range r base term) in Hp; [|exact Wf]. rewrite A4, Len3, A2, Len. unfold term in Hp. lia. }
  exists n5. split; [reflexivity|]. destruct Ex1 as (X1 & X2 & X3 & X4), Ex3 as (Y1 & Y2 & Y3 & Y4), Ex5 as (Z1 & Z2 & Z3 & Z4).
  split; [|split; [|split; [|split]]].
  - rewrite Z2. cbn [map]. rewrite app_nil_r, (info_positions n3 n4 A4), Y2, (info_positions n1 n2 A2), X2. cbn [map].
    now rewrite <- app_assoc.
  - intros p. rewrite Z1. unfold n4. destruct (gnull r).
    + unfold register_startpos. cbn [n_start]. rewrite set_insert_in, Y1, B2, X1. intuition.
    + rewrite Y1, B2, X1. intuition discriminate.
  - intros x y. rewrite Z3, (follow_positions n3 n4 x A4), Y3, (follow_positions n1 n2 x A2), X3. cbn [In].
    rewrite P. cbn [gfol In].
    assert (Hm : In (x, y) (map (fun p => (p, term)) (glast r)) <-> In x (glast r) /\ y = term).
    { rewrite in_map_iff. split; [intros (p & Ep & Hp); injection Ep as -> ->; auto|intros [H ->]; exists x; auto]. }
    rewrite Hm. tauto.
  - intros H. apply Z4. intros p. rewrite (follow_positions n3 n4 p A4). apply Y4. intros p'. rewrite (follow_positions n1 n2 p' A2).
    now apply X4.
  - intros H. rewrite Z1. unfold n4. destruct (gnull r).
    + unfold register_startpos. cbn [n_start]. apply set_insert_incr. rewrite Y1. apply C2. now rewrite X1.
    + rewrite Y1. apply C2. now rewrite X1.
Qed.

(* ---- all the patterns ---- *)

Fixpoint offs (ts : list tseq) (i : nat) : nat :=
  match ts, i with
  | t :: ts, S i => S (size t) + offs ts i
  | _, _ => 0
  end.

Record block (n : nfa) (i base : nat) (t : tseq) : Prop := {
  blk_sym : forall k x, nth_error (seq_syms t) k = Some x -> nth_error (info n) (base + k) = Some (i, x);
  blk_term : nth_error (info n) (base + size t) = Some (i, (size t, dummy_symbol));
  blk_follow : forall p q, base <= p < base + size t ->
    (In q (follow n p) <-> In (p, q) (gfol (re_seq Eps t base)) \/ (In p (glast (re_seq Eps t base)) /\ q = base + size t));
  blk_final : follow n (base + size t) = [];
  blk_start : forall p, base <= p <= base + size t ->
    (In p (n_start n) <-> In p (gfirst (re_seq Eps t base)) \/ (gnull (re_seq Eps t base) = true /\ p = base + size t))
}.

Record nfa_ok (n : nfa) (ts : list tseq) : Prop := {
  ok_length : length (n_positions n) = offs ts (length ts);
  ok_start : forall p, In p (n_start n) -> p < length (n_positions n);
  ok_follow : forall p, length (n_positions n) <= p -> follow n p = [];
  ok_incr : nfa_incr n;
  ok_start_incr : incr (n_start n);
  ok_block : forall i t, nth_error ts i = Some t -> block n i (offs ts i) t
}.

Lemma offs_app ts ts' i : i <= length ts -> offs (ts ++ ts') i = offs ts i.
Proof.
  revert i. induction ts as [|t ts IH]; intros i Hi; [destruct i; [destruct ts'; reflexivity|cbn [length] in Hi; lia]|].
  destruct i; [reflexivity|]. cbn [app offs]. rewrite IH; [reflexivity|cbn [length] in Hi; lia].
Qed.

Lemma offs_succ ts i t : nth_error ts i = Some t -> offs ts (S i) = offs ts i + S (size t).
Proof.
  revert i. induction ts as [|u ts IH]; intros i H; [destruct i; discriminate|]. destruct i; cbn [nth_error] in H.
  - injection H as ->. cbn [offs]. destruct ts; cbn [offs]; lia.
  - cbn [offs] in *. specialize (IH i H). lia.
Qed.

Lemma offs_mono ts i : forall j, i <= j -> j <= length ts -> offs ts i <= offs ts j.
Proof.
  induction 1 as [|j H IH]; intros Hj; [lia|]. destruct (nth_error ts j) as [t|] eqn:E.
  - rewrite (offs_succ ts j t E). specialize (IH ltac:(lia)). lia.
  - apply nth_error_None in E. lia.
Qed.

Lemma follow_in_range n p q : In q (follow n p) -> p < length (n_positions n).
Proof.
  unfold follow. destruct (nth_error (n_positions n) p) eqn:E; [|intros []]. intros _. apply nth_error_Some. congruence.
Qed.

Lemma add_ok st n ts i q fuel : nfa_ok n ts -> rep_pattern st i q -> qsteps q < fuel ->
  exists n', add_pattern st (length ts) fuel n i = Some n' /\ nfa_ok n' (ts ++ [q]).
Proof.
  intros [K1 K2 K3 K4 K5 K6] Hr Hf.
  destruct (add_pattern_ok st (length ts) n i q Hr fuel Hf) as (n' & E & I & St & F & V & V2). exists n'. split; [exact E|]. clear E Hf.
  set (base := length (n_positions n)) in *.
  pose proof (re_seq_wf q base : wf base (re_seq Eps q base) (base + size q)) as Wf.
  assert (Len : length (n_positions n') = base + S (size q)).
  { rewrite <- info_length, I, !app_length, map_length, info_length. cbn [length]. unfold base, size. lia. }
  assert (Off : forall t j, nth_error ts j = Some t -> offs ts j + size t < base).
  { intros t j Hj. pose proof (offs_succ ts j t Hj). assert (j < length ts) by (apply nth_error_Some; congruence).
    pose proof (offs_mono ts (S j) (length ts) ltac:(lia) ltac:(lia)). lia. }
  constructor.
  - rewrite app_length. cbn [length]. rewrite Nat.add_1_r, (offs_succ (ts ++ [q]) (length ts) q).
    + rewrite offs_app by lia. rewrite <- K1. exact Len.
    + rewrite nth_error_app2, Nat.sub_diag by lia. reflexivity.
  - intros p Hp. rewrite Len. apply St in Hp as [Hp|[Hp|[_ ->]]].
    + specialize (K2 p Hp). fold base in K2. lia.
    + apply (gfirst_range _ base (base + size q)) in Hp; [lia|exact Wf].
    + lia.
  - intros p Hp. rewrite Len in Hp. destruct (follow n' p) as [|y l] eqn:Ey; [reflexivity|].
    assert (Hy : In y (follow n' p)) by (rewrite Ey; now left). apply F in Hy as [Hy|[Hy|[Hy _]]].
    + apply follow_in_range in Hy. fold base in Hy. lia.
    + apply (gfol_range _ base (base + size q)) in Hy; [lia|exact Wf].
    + apply (glast_range _ base (base + size q)) in Hy; [lia|exact Wf].
  - auto.
  - auto.
  - intros j t Hj. destruct (Nat.lt_ge_cases j (length ts)) as [Hlt|Hge].
    + rewrite nth_error_app1 in Hj by exact Hlt. rewrite offs_app by lia. pose proof (Off t j Hj) as Ho.
      destruct (K6 j t Hj) as [B1 B2 B3 B4 B5]. set (b := offs ts j) in *. constructor.
      * intros k x Hk. rewrite I, nth_error_app1; [now apply B1|]. rewrite info_length. fold base.
        assert (k < size t) by (apply nth_error_Some; unfold size in *; congruence). lia.
      * rewrite I, nth_error_app1; [exact B2|]. rewrite info_length. fold base. lia.
      * intros p y Hp. rewrite F, B3 by exact Hp. split; [|tauto]. intros [Hi|[Hi|[Hi _]]]; [exact Hi| |].
        -- apply (gfol_range _ base (base + size q)) in Hi; [lia|exact Wf].
        -- apply (glast_range _ base (base + size q)) in Hi; [lia|exact Wf].
      * destruct (follow n' (b + size t)) as [|y l] eqn:Ey; [reflexivity|].
        assert (Hy : In y (follow n' (b + size t))) by (rewrite Ey; now left). apply F in Hy as [Hy|[Hy|[Hy _]]].
        -- rewrite B4 in Hy. destruct Hy.
        -- apply (gfol_range _ base (base + size q)) in Hy; [lia|exact Wf].
        -- apply (glast_range _ base (base + size q)) in Hy; [lia|exact Wf].
      * intros p Hp. rewrite St, B5 by exact Hp. split; [|tauto]. intros [Hi|[Hi|[_ Hi]]]; [exact Hi| |].
        -- apply (gfirst_range _ base (base + size q)) in Hi; [lia|exact Wf].
        -- lia.
    + assert (j = length ts) by (apply Nat.le_antisymm; [|exact Hge]; assert (j < length (ts ++ [q])) by (apply nth_error_Some; congruence);
        rewrite app_length in *; cbn [length] in *; lia). subst j.
      rewrite nth_error_app2, Nat.sub_diag in Hj by lia. injection Hj as <-. rewrite offs_app by lia. rewrite <- K1. fold base. constructor.
      * intros k x Hk. rewrite I, nth_error_app2 by (rewrite info_length; fold base; lia). rewrite info_length. fold base.
        replace (base + k - base) with k by lia. rewrite nth_error_app1 by (rewrite map_length; apply nth_error_Some; congruence).
        now apply map_nth_error.
      * rewrite I, nth_error_app2 by (rewrite info_length; fold base; lia). rewrite info_length. fold base.
        replace (base + size q - base) with (size q) by lia. rewrite nth_error_app2 by (rewrite map_length; unfold size; lia).
        rewrite map_length. change (length (seq_syms q)) with (size q). rewrite Nat.sub_diag. reflexivity.
      * intros p y Hp. rewrite F. split; [|tauto]. intros [Hi|Hi]; [|exact Hi]. apply follow_in_range in Hi. fold base in Hi. lia.
      * destruct (follow n' (base + size q)) as [|y l] eqn:Ey; [reflexivity|].
        assert (Hy : In y (follow n' (base + size q))) by (rewrite Ey; now left). apply F in Hy as [Hy|[Hy|[Hy _]]].
        -- apply follow_in_range in Hy. fold base in Hy. lia.
        -- apply (gfol_range _ base (base + size q)) in Hy; [lia|exact Wf].
        -- apply (glast_range _ base (base + size q)) in Hy; [lia|exact Wf].
      * intros p Hp. rewrite St. split; [|tauto]. intros [Hi|Hi]; [|exact Hi]. specialize (K2 p Hi). fold base in K2. lia.
Qed.

Lemma empty_ok : nfa_ok (Nfa [] []) [].
Proof.
  constructor.
  - reflexivity.
  - intros p [].
  - intros p _. unfold follow. destruct p; reflexivity.
  - intros p. unfold follow. destruct p; constructor.
  - constructor.
  - intros i t H. destruct i; discriminate.
Qed.

Lemma build_nfa_ok st fuel patterns ts : Forall2 (rep_pattern st) patterns ts -> (forall t, In t ts -> qsteps t < fuel) ->
  forall n ts0, nfa_ok n ts0 ->
  exists n', build_nfa st fuel n (length ts0) patterns = Some n' /\ nfa_ok n' (ts0 ++ ts).
Proof.
  induction 1 as [|i t patterns ts Hr H IH]; intros Hf n ts0 K; cbn [build_nfa].
  - exists n. rewrite app_nil_r. auto.
  - destruct (add_ok st n ts0 i t fuel K Hr (Hf t (or_introl eq_refl))) as (n1 & -> & K1). cbn [obind].
    destruct (IH (fun t Ht => Hf t (or_intror Ht)) n1 (ts0 ++ [t]) K1) as (n2 & E2 & K2).
    rewrite app_length in E2. cbn [length] in E2. rewrite Nat.add_1_r in E2.
    exists n2. split; [exact E2|]. now rewrite <- app_assoc in K2.
Qed.

(* ---- paths ---- *)

Section Block.
  Variables (n : nfa) (i base : nat) (t : tseq).
  Hypothesis B : block n i base t.
  Let r := re_seq Eps t base.
  Let term := base + size t.
  Let lab := label_of base (seq_syms t).

  Lemma block_wf : wf base r term.
  Proof. apply re_seq_wf. Qed.

  Lemma block_lab p : base <= p < term -> nth_error (info n) p = Some (i, lab p).
  Proof.
    intros Hp. destruct (nth_error (seq_syms t) (p - base)) as [x|] eqn:E.
    - pose proof (label_of_ok base (seq_syms t) (p - base) x E) as Hl. pose proof (blk_sym _ _ _ _ B (p - base) x E) as Hs.
      replace (base + (p - base)) with p in * by lia. rewrite Hs. now rewrite <- Hl.
    - apply nth_error_None in E. unfold term, size in Hp. lia.
  Qed.

  Lemma info_nth m p x : nth_error (info m) p = Some x ->
    exists pos, nth_error (n_positions m) p = Some pos /\ p_follow pos = follow m p /\ x = (p_pattern pos, (p_ipos pos, p_sym pos)).
  Proof.
    unfold info, follow. intros H. destruct (nth_error (n_positions m) p) as [pos|] eqn:E.
    - rewrite (map_nth_error _ _ _ E) in H. injection H as <-. exists pos. auto.
    - apply nth_error_None in E. assert (p < length (map (fun pos => (p_pattern pos, (p_ipos pos, p_sym pos))) (n_positions m)))
        by (apply nth_error_Some; congruence). rewrite map_length in *. lia.
  Qed.

  (* paths inside of the block, by the positions visited *)
  Lemma chain_path : forall w p, base <= p < term -> chain (gfol r) p w (glast r) ->
    nfa_path n p (map lab (p :: w)) term.
  Proof.
    induction w as [|q w IH]; intros p Hp Hc; cbn [chain map] in *; destruct (info_nth n p _ (block_lab p Hp)) as (pos & E & F & I).
    - replace (lab p) with (p_ipos pos, p_sym pos) by congruence. apply (path_cons n p pos term); [exact E| |constructor].
      rewrite F. apply (blk_follow _ _ _ _ B); [exact Hp|]. right. auto.
    - destruct Hc as [H1 H2]. replace (lab p) with (p_ipos pos, p_sym pos) by congruence. apply (path_cons n p pos q); [exact E| |].
      + rewrite F. apply (blk_follow _ _ _ _ B); [exact Hp|]. left. exact H1.
      + apply IH; [|exact H2]. apply (gfol_range r base term) in H1; [lia|apply block_wf].
  Qed.

  Lemma path_chain p w z : nfa_path n p w z -> base <= p <= term ->
    base <= z <= term /\
    (z = term -> p = term /\ w = [] \/ p < term /\ exists v, w = map lab (p :: v) /\ chain (gfol r) p v (glast r)).
  Proof.
    induction 1 as [p|p pos q w z E F H IH]; intros Hp.
    - split; [exact Hp|]. intros ->. left. auto.
    - destruct (Nat.eq_dec p term) as [->|Hne].
      { pose proof (blk_final _ _ _ _ B) as Hf. fold term in Hf. unfold follow in Hf. rewrite E in Hf. rewrite Hf in F. destruct F. }
      assert (Hp2 : base <= p < term) by lia. destruct (info_nth n p _ (block_lab p Hp2)) as (pos' & E' & F' & I').
      assert (pos' = pos) by congruence. subst pos'. rewrite F' in F. pose proof F as G. apply (blk_follow _ _ _ _ B) in G; [|exact Hp2].
      fold r in G. fold term in G. assert (Hq : base <= q <= term).
      { destruct G as [G|[_ ->]]; [|unfold term; lia]. apply (gfol_range r base term) in G; [lia|apply block_wf]. }
      destruct (IH Hq) as [Hz K]. split; [exact Hz|]. intros Ht. right. split; [lia|]. destruct (K Ht) as [[-> ->]|(Hlt & v & -> & C)].
      + exists []. cbn [map chain]. split; [f_equal; congruence|]. destruct G as [G|[G _]]; [|exact G].
        apply (gfol_range r base term) in G; [lia|apply block_wf].
      + exists (q :: v). cbn [map chain]. split; [f_equal; congruence|]. split; [|exact C]. destruct G as [G|[_ ->]]; [exact G|lia].
  Qed.

  Lemma seq_word_iff w : m_seq t w <-> exists v, w = map lab v /\ word r v.
  Proof.
    rewrite (seq_words t lab base) by apply label_of_ok. split; intros (v & A & C); exists v; (split; [exact A|]);
      [apply (L_iff r base term); [apply block_wf|exact C]|apply (L_iff r base term) in C; [exact C|apply block_wf]].
  Qed.

  (* what is read from the start to the final position *)
  Lemma block_accepts w : m_seq t w <-> exists p, In p (n_start n) /\ base <= p <= term /\ nfa_path n p w term.
  Proof.
    rewrite seq_word_iff. split.
    - intros (v & -> & H). destruct v as [|x v]; cbn [word] in H.
      + exists term. split; [apply (blk_start _ _ _ _ B); [unfold term; lia|right; auto]|]. split; [unfold term; lia|constructor].
      + destruct H as [H1 H2]. assert (Hx : base <= x < term) by (apply (gfirst_range r base term); [apply block_wf|exact H1]).
        exists x. split; [apply (blk_start _ _ _ _ B); [lia|left; exact H1]|]. split; [lia|]. now apply chain_path.
    - intros (p & Hs & Hp & H). apply (blk_start _ _ _ _ B) in Hs; [|exact Hp]. destruct (path_chain p w term H Hp) as [_ K].
      destruct (K eq_refl) as [[-> ->]|(Hlt & v & -> & C)].
      + exists []. split; [reflexivity|]. cbn [word]. destruct Hs as [Hs|[Hs _]]; [|exact Hs].
        apply (gfirst_range _ base term) in Hs; [lia|apply block_wf].
      + exists (p :: v). split; [reflexivity|]. cbn [word]. split; [|exact C]. destruct Hs as [Hs|[_ ->]]; [exact Hs|unfold term in Hlt; lia].
  Qed.

  (* the only final position *)
  Lemma block_final p : base <= p <= term -> (follow n p = [] <-> p = term).
  Proof.
    intros Hp. split; [|intros ->; apply (blk_final _ _ _ _ B)]. intros Hf. destruct (Nat.eq_dec p term) as [|Hne]; [assumption|exfalso].
    destruct (chain_out r base term p block_wf) as (v & C); [apply re_productive; exact I|lia|].
    assert (G : exists q, In q (follow n p)).
    { destruct v as [|q v]; cbn [chain] in C.
      - exists term. apply (blk_follow _ _ _ _ B); [lia|]. right. auto.
      - exists q. apply (blk_follow _ _ _ _ B); [lia|]. left. tauto. }
    destruct G as (q & G). rewrite Hf in G. destruct G.
  Qed.

  (* from every position there is a way to the end *)
  Lemma block_out p : base <= p <= term -> exists w, nfa_path n p w term.
  Proof.
    intros Hp. destruct (Nat.eq_dec p term) as [->|Hne]; [exists []; constructor|].
    destruct (chain_out r base term p block_wf) as (v & C); [apply re_productive; exact I|lia|].
    exists (map lab (p :: v)). apply chain_path; [lia|exact C].
  Qed.

  Lemma block_pattern p : base <= p <= term -> exists pos, nth_error (n_positions n) p = Some pos /\ p_pattern pos = i /\ p_follow pos = follow n p.
  Proof.
    intros Hp. destruct (Nat.eq_dec p term) as [->|Hne].
    - destruct (info_nth n term _ (blk_term _ _ _ _ B)) as (pos & E & F & G). exists pos. repeat split; congruence.
    - destruct (info_nth n p _ (block_lab p ltac:(lia))) as (pos & E & F & G). exists pos. repeat split; congruence.
  Qed.
End Block.

Section Whole.
  Variables (n : nfa) (ts : list tseq).
  Hypothesis K : nfa_ok n ts.

  Lemma offs_range i t : nth_error ts i = Some t -> offs ts i + size t < length (n_positions n).
  Proof.
    intros H. rewrite (ok_length _ _ K). pose proof (offs_succ ts i t H). assert (i < length ts) by (apply nth_error_Some; congruence).
    pose proof (offs_mono ts (S i) (length ts) ltac:(lia) ltac:(lia)). lia.
  Qed.

  (* every position is in a block *)
  Lemma in_block p : p < length (n_positions n) -> exists i t, nth_error ts i = Some t /\ offs ts i <= p <= offs ts i + size t.
  Proof.
    rewrite (ok_length _ _ K). clear K. revert p. induction ts as [|t l IH]; intros p Hp; cbn [length offs] in Hp; [lia|].
    destruct (Nat.le_gt_cases p (size t)) as [H|H].
    - exists 0, t. cbn [nth_error offs]. split; [reflexivity|]. lia.
    - destruct (IH (p - S (size t))) as (i & u & E & R); [lia|]. exists (S i), u. cbn [nth_error offs]. split; [exact E|]. lia.
  Qed.

  Lemma block_unique p i t j u : nth_error ts i = Some t -> nth_error ts j = Some u ->
    offs ts i <= p <= offs ts i + size t -> offs ts j <= p <= offs ts j + size u -> i = j.
  Proof.
    intros Hi Hj Pi Pj. destruct (Nat.lt_trichotomy i j) as [H|[H|H]]; [exfalso|exact H|exfalso].
    - pose proof (offs_succ ts i t Hi). assert (j < length ts) by (apply nth_error_Some; congruence).
      pose proof (offs_mono ts (S i) j ltac:(lia) ltac:(lia)). lia.
    - pose proof (offs_succ ts j u Hj). assert (i < length ts) by (apply nth_error_Some; congruence).
      pose proof (offs_mono ts (S j) i ltac:(lia) ltac:(lia)). lia.
  Qed.

  Lemma accepts_iff i w : nfa_accepts n i w <-> exists t, nth_error ts i = Some t /\ m_seq t w.
  Proof.
    split.
    - intros (p & z & pos & Hs & Hp & Hz & Hf & Hi). pose proof (ok_start _ _ K p Hs) as Hr.
      destruct (in_block p Hr) as (j & t & Et & Rt). pose proof (ok_block _ _ K j t Et) as B.
      destruct (path_chain n j _ t B p w z Hp Rt) as [Rz _].
      assert (z = offs ts j + size t).
      { apply (block_final n j _ t B); [exact Rz|]. unfold follow. now rewrite Hz. }
      subst z. destruct (block_pattern n j _ t B _ Rz) as (pos' & E' & P' & _). assert (pos' = pos) by congruence. subst pos'.
      rewrite <- Hi, P' in *. exists t. split; [exact Et|]. apply (block_accepts n j _ t B). exists p. auto.
    - intros (t & Et & M). pose proof (ok_block _ _ K i t Et) as B. apply (block_accepts n i _ t B) in M as (p & Hs & Rp & Hp).
      destruct (block_pattern n i _ t B (offs ts i + size t)) as (pos & E & P & F); [lia|].
      exists p, (offs ts i + size t), pos. repeat split; try assumption. rewrite F. apply (blk_final _ _ _ _ B).
  Qed.
End Whole.
