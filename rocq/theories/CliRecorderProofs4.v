(* The recorder: proof of the invariant of the recursion. *)
From Coq Require Import List Arith Bool Lia.
From Verif Require Import CliPatternModel CliPatternSpec CliTreeProofs CliSpecModel CliRecorderModel CliRecorderSpec CliAmbigProofs CliValueProofs CliSpecProofs CliRecorderProofs CliRecorderProofs2 CliRecorderProofs3.
Import ListNotations.

Section Main.
  Variable pi : nat.

  Definition resolves (f : leaf -> psym) (ls : list leaf) (s : spec) : Prop := forall l, In l ls -> sym_in s l = Some (f l).

  Definition spec_post (ls : list leaf) (s s' : spec) : Prop :=
    spec_ok s' /\ recorded pi ls s s' /\ forall l m, In l ls -> ~ bad_ref s l m.

  Definition seq_level (l : level) (q : tseq) : level :=
    match l with
    | LSeq off np n r => LSeq off (np + num_params q) (n && nul_q q) ((r && nul_q q) || (n && rp_q q))
    | l => l
    end.
  Definition is_seq (l : level) : Prop := match l with LSeq _ _ _ _ => True | _ => False end.

  Definition seq_post (q : tseq) (n : nat) (x x' : rstate) : Prop :=
    exists es, x_elems x' = x_elems x ++ es /\ full_list (x_st x') es q /\ x_levels x' = x_levels x /\ x_seqs x' = x_seqs x /\
      x_level x' = seq_level (x_level x) q /\ x_next_pos x' = x_next_pos x + n /\ extends (x_st x) (x_st x') /\ ok_q q = true.

  Definition branch_post (b : tbranches) (n : nat) (x x' : rstate) : Prop :=
    exists qs ql sqs es la ls, blist b = qs ++ [ql] /\ x_seqs x' = x_seqs x ++ sqs /\ Forall2 (full_sq (x_st x')) sqs qs /\
      x_elems x' = x_elems x ++ es /\ full_list (x_st x') es ql /\ x_levels x = la :: ls /\ x_levels x' = fold_left alt_step qs la :: ls /\
      x_level x' = LSeq (length (x_elems x)) (num_params ql) (nul_q ql) (rp_q ql) /\
      x_next_pos x' = x_next_pos x + n /\ extends (x_st x) (x_st x') /\ forallb ok_q (blist b) = true /\
      one_beyond (seq_syms ql) (x_next_pos x').

  Definition ref_error (ls : list leaf) (s : spec) (c : spec_code) (m : spec_msg) : Prop :=
    c = bad_option_ref /\ exists l, In l ls /\ bad_ref s l m.

  Definition seq_result (t : ptree) (x : rstate) (r : presult rstate) : Prop :=
    match r with
    | POk x' => spec_post (leaves t) (x_spec x) (x_spec x') /\
        forall f, resolves f (leaves t) (x_spec x') -> seq_post (fst (shape f (x_next_pos x) t)) (length (leaves t)) x x'
    | PErr c m => (c = bad_pattern_syntax /\ forall f pos, flaw_seq m (fst (shape f pos t))) \/ ref_error (leaves t) (x_spec x) c m
    | PBad => False
    end.

  Definition branch_result (t : ptree) (x : rstate) (r : presult rstate) : Prop :=
    match r with
    | POk x' => spec_post (leaves t) (x_spec x) (x_spec x') /\
        forall f, resolves f (leaves t) (x_spec x') -> branch_post (snd (shape f (x_next_pos x) t)) (length (leaves t)) x x'
    | PErr c m => (c = bad_pattern_syntax /\ forall f pos, exists k q, nth_error (blist (snd (shape f pos t))) k = Some q /\ flaw_seq m q) \/
        ref_error (leaves t) (x_spec x) c m
    | PBad => False
    end.

  Definition fresh (x : rstate) : Prop :=
    x_level x = LSeq (length (x_elems x)) 0 true false /\ exists la ls, x_levels x = la :: ls /\ is_alt la.

  Lemma resolves_back f ls ls' s s' : recorded pi ls' s s' -> (forall l, In l ls -> sym_in s l <> None) -> resolves f ls s' -> resolves f ls s.
  Proof.
    intros (G & _) K H l Hl. specialize (K l Hl). destruct (sym_in s l) as [y|] eqn:E; [|easy].
    specialize (H l Hl). rewrite (G l y E) in H. exact H.
  Qed.

  Lemma resolves_sym s ls : (forall l, In l ls -> sym_in s l <> None) -> resolves (sym_of s) ls s.
  Proof. intros K l Hl. specialize (K l Hl). unfold sym_of. now destruct (sym_in s l). Qed.

  Lemma spec_post_app l1 l2 a b c : spec_ok a -> spec_post l1 a b -> spec_post l2 b c -> spec_post (l1 ++ l2) a c.
  Proof.
    intros Ok (O1 & R1 & B1) (O2 & R2 & B2). split; [exact O2|]. split; [now apply (recorded_trans pi l1 l2 a b c)|].
    intros l m Hl. apply in_app_iff in Hl as [Hl|Hl]; [now apply B1|]. intros H. apply (B2 l m Hl). now apply (bad_ref_forth pi l1 a b).
  Qed.

  Lemma ref_error_app_l l1 l2 s c m : ref_error l1 s c m -> ref_error (l1 ++ l2) s c m.
  Proof. intros (H & l & Hl & B). split; [exact H|]. exists l. split; [apply in_app_iff; now left|exact B]. Qed.
  Lemma ref_error_app_r l1 l2 a b c m : spec_ok a -> spec_post l1 a b -> ref_error l2 b c m -> ref_error (l1 ++ l2) a c m.
  Proof.
    intros Ok (O1 & R1 & _) (H & l & Hl & B). split; [exact H|]. exists l. split; [apply in_app_iff; now right|]. now apply (bad_ref_back pi l1 a b).
  Qed.

  (* ---- leaves ---- *)

  Lemma symbol_post x s y p : is_seq (x_level x) -> p = is_slot y -> exists x', stage_symbol (with_spec x s) y p = POk x' /\ x_spec x' = s /\
    seq_post (SCons (ESym (x_next_pos x) y) SNil) 1 x x'.
  Proof.
    intros L ->. unfold stage_symbol, stage_elem, with_spec. cbn [x_level x_st x_levels x_seqs x_elems x_next_pos x_spec].
    destruct (x_level x) as [off np n r|] eqn:El; [|easy]. eexists. split; [reflexivity|]. split; [reflexivity|].
    unfold seq_post. cbn [x_level x_st x_levels x_seqs x_elems x_next_pos x_spec]. eexists. split; [reflexivity|]. split.
    { constructor; [|constructor]. apply full_sym; cbn; auto. rewrite nth_error_app2, Nat.sub_diag by lia. reflexivity. }
    split; [reflexivity|]. split; [reflexivity|]. split.
    { rewrite El. cbn [seq_level num_params takes_param nul_q nul_e rp_q rp_e]. rewrite Nat.add_0_r.
      destruct n, r; reflexivity. }
    split; [lia|]. split; [|reflexivity]. repeat split; cbn; eexists; try reflexivity; symmetry; apply app_nil_r.
  Qed.

  Lemma leaf_result l x : spec_ok (x_spec x) -> leaf_ok l -> is_seq (x_level x) -> seq_result (PLeaf l) x (run_leaf pi l x).
  Proof.
    intros Ok Lo Ls.
    assert (Post : forall s y p, spec_post [l] (x_spec x) s -> sym_in s l = Some y -> p = is_slot y ->
      seq_result (PLeaf l) x (stage_symbol (with_spec x s) y p)).
    { intros s y p Sp Sy Ep. destruct (symbol_post x s y p Ls Ep) as (x' & -> & E & H). unfold seq_result. rewrite E. split; [exact Sp|].
      intros f F. cbn [shape fst leaves length]. rewrite (F l) in Sy by now left. injection Sy as <-. exact H. }
    destruct l as [t|t|t|t]; cbn [run_leaf].
    - destruct (ensure_keyword (x_spec x) t) as [s i] eqn:E. destruct (keyword_step pi _ _ _ _ Ok E) as (A & B & C).
      apply Post; auto. split; [exact A|]. split; [exact B|]. intros l m [<-|[]] (i0 & q & j & o & H & _). cbn [sym_in] in H.
      destruct (find_keyword (x_spec x) t); discriminate.
    - unfold stage_option. destruct (option_step pi (x_spec x) (Oform false t) Ok Lo) as [(s & i & E & A & B & C & D)|(m & E & B)].
      + rewrite E. cbn [pbind]. apply (Post s _ false); auto. split; [exact A|]. split; [exact B|]. intros l m [<-|[]]. apply D.
      + rewrite E. cbn [pbind seq_result]. right. split; [reflexivity|]. eexists. split; [now left|exact B].
    - unfold stage_option. destruct (option_step pi (x_spec x) (Oform true t) Ok Lo) as [(s & i & E & A & B & C & D)|(m & E & B)].
      + rewrite E. cbn [pbind]. apply (Post s _ false); auto. split; [exact A|]. split; [exact B|]. intros l m [<-|[]]. apply D.
      + rewrite E. cbn [pbind seq_result]. right. split; [reflexivity|]. eexists. split; [now left|exact B].
    - replace x with (with_spec x (x_spec x)) at 2 by now destruct x. apply Post; auto. split; [exact Ok|]. split.
      + destruct (recorded_refl pi (x_spec x)) as (A & B & C & D). split; [auto|]. split; [intros l [<-|[]]; discriminate|]. split; [auto|].
        destruct D as (D1 & D2 & D3 & D4 & D5 & D6 & D7). repeat (split; [assumption|]). intros i. split; [reflexivity|]. split; [reflexivity|]. intros H. right.
        split; [exact H|]. intros l [<-|[]]. discriminate.
      + intros l m [<-|[]] (i0 & q & j & o & H & _). discriminate.
  Qed.

  (* ---- a construct that is closed ---- *)

  (* the result of a run in a new sequence level *)
  Lemma inner_result a x r : (spec_ok (x_spec x)) -> seq_result a (open_seq x) r ->
    match r with
    | POk x' => spec_post (leaves a) (x_spec x) (x_spec x') /\
        forall f, resolves f (leaves a) (x_spec x') -> let q := fst (shape f (x_next_pos x) a) in
          x_level x' = LSeq (length (x_elems x)) (num_params q) (nul_q q) (rp_q q) /\ ok_q q = true /\
          exists x2 i, close_seq x' = POk (x2, i) /\ x_elems x2 = x_elems x /\ x_levels x2 = x_levels x /\ x_seqs x2 = x_seqs x /\
            x_level x2 = x_level x /\ x_next_pos x2 = x_next_pos x + length (leaves a) /\ extends (x_st x) (x_st x2) /\ x_spec x2 = x_spec x' /\
            full_seq (x_st x2) i q
    | PErr c m => (c = bad_pattern_syntax /\ forall f pos, flaw_seq m (fst (shape f pos a))) \/ ref_error (leaves a) (x_spec x) c m
    | PBad => False
    end.
  Proof.
    intros Ok. destruct r as [x'|c m|]; cbn [seq_result]; try exact (fun H => H). intros (Sp & H). split; [exact Sp|].
    intros f F. specialize (H f F). cbn [open_seq x_next_pos] in H. set (q := fst (shape f (x_next_pos x) a)) in *. cbn zeta.
    destruct H as (es & E1 & E2 & E3 & E4 & E5 & E6 & E7 & E8). cbn [open_seq x_elems x_levels x_seqs x_level x_next_pos x_st seq_level] in *.
    cbn [andb orb] in E5. rewrite Nat.add_0_l in E5. split; [exact E5|]. split; [exact E8|].
    eexists _, _. split; [apply (close_seq_eq x' (x_elems x) es _ _ _ (x_level x) (x_levels x) E1 E5 E3)|].
    cbn [x_elems x_levels x_seqs x_level x_next_pos x_st x_spec]. do 2 (split; [reflexivity|]). split; [exact E4|]. split; [reflexivity|]. split; [exact E6|].
    split; [eapply extends_trans; [exact E7|apply grown_extends]|]. split; [reflexivity|].
    eapply full_seq_intro.
    - unfold grown. cbn [ps_seqs]. rewrite nth_error_app2, Nat.sub_diag by lia. reflexivity.
    - cbn [q_elems_offset q_num_elems]. apply (full_list_elems _ _ _ (ps_elems (x_st x')) []); [unfold grown; cbn [ps_elems]; now rewrite app_nil_r|].
      eapply full_list_mono; [apply grown_extends|exact E2].
    - reflexivity.
    - cbn [q_end_pos]. rewrite E6. apply shape_beyond.
    - cbn [q_nullable]. apply nul_q_iff.
  Qed.

  Lemma zero_iff n : (n =? 0) = true <-> n = 0. Proof. apply Nat.eqb_eq. Qed.

  Lemma opt_result a x : spec_ok (x_spec x) -> is_seq (x_level x) ->
    seq_result a (open_seq x) (run pi a false (open_seq x)) -> seq_result (POpt a) x (run pi (POpt a) false x).
  Proof.
    intros Ok Ls H. apply inner_result in H; [|exact Ok]. cbn [run]. destruct (run pi a false (open_seq x)) as [x'|c m|]; cbn [pbind]; [| |easy].
    - destruct H as (Sp & H). assert (F0 := resolves_sym (x_spec x') (leaves a) (proj1 (proj2 (proj1 (proj2 Sp))))).
      destruct (H _ F0) as (E1 & E2 & x2 & i & E3 & _ & _ & _ & E7 & E8 & _ & E10 & _). unfold finish_opt. rewrite E1.
      destruct (nul_q (fst (shape (sym_of (x_spec x')) (x_next_pos x) a))) eqn:Nu.
      + left. split; [reflexivity|]. intros f pos. cbn [shape fst]. apply flaw_here. apply flaw_opt; [reflexivity|]. apply nul_q_iff.
        rewrite <- Nu. apply shape_bool.
      + rewrite E3. cbn [pbind]. unfold stage_elem. rewrite E7. destruct (x_level x) as [off np n r|] eqn:El; [|easy].
        cbn [seq_result x_spec]. rewrite E10. split; [exact Sp|]. intros f F. specialize (H f F).
        assert (ES : shape (sym_of (x_spec x')) (x_next_pos x) a = shape f (x_next_pos x) a).
        { apply shape_ext. intros l Hl. specialize (F l Hl). specialize (F0 l Hl). congruence. }
        rewrite ES in *. cbn [shape fst leaves]. set (q := fst (shape f (x_next_pos x) a)) in *.
        destruct H as (_ & _ & x2' & i' & Y & Y1 & Y2 & Y3 & Y4 & Y5 & Y6 & Y7 & Y8). rewrite E3 in Y. injection Y as <- <-.
        eexists. cbn [x_elems x_levels x_seqs x_level x_next_pos x_st]. split; [now rewrite Y1|]. split.
        { constructor; [|constructor]. apply full_opt; cbn [e_type e_index e_collapsible e_is_param e_end_pos]; auto; [apply zero_iff|].
          rewrite Y5. apply shape_beyond. }
        split; [exact Y2|]. split; [exact Y3|]. split.
        { rewrite El. cbn [seq_level num_params takes_param nul_q nul_e rp_q rp_e]. destruct n, r, (rp_q q); reflexivity. }
        split; [exact Y5|]. split; [exact Y6|]. cbn [ok_q ok_e]. rewrite E2, Nu. reflexivity.
    - destruct H as [(-> & H)|H]; [left|right; exact H]. split; [reflexivity|]. intros f pos. cbn [shape fst]. apply flaw_here. apply flaw_in_opt. apply H.
  Qed.

  Lemma rep_result a x : spec_ok (x_spec x) -> is_seq (x_level x) ->
    seq_result a (open_seq x) (run pi a false (open_seq x)) -> seq_result (PRep a) x (run pi (PRep a) false x).
  Proof.
    intros Ok Ls H. apply inner_result in H; [|exact Ok]. cbn [run]. destruct (run pi a false (open_seq x)) as [x'|c m|]; cbn [pbind]; [| |easy].
    - destruct H as (Sp & H). assert (F0 := resolves_sym (x_spec x') (leaves a) (proj1 (proj2 (proj1 (proj2 Sp))))).
      destruct (H _ F0) as (E1 & E2 & x2 & i & E3 & _ & _ & _ & E7 & E8 & _ & E10 & _). unfold finish_rep. rewrite E1.
      destruct (nul_q (fst (shape (sym_of (x_spec x')) (x_next_pos x) a))) eqn:Nu.
      { left. split; [reflexivity|]. intros f pos. cbn [shape fst]. apply flaw_here. apply flaw_rep_1; [reflexivity|]. apply nul_q_iff.
        rewrite <- Nu. apply shape_bool. }
      destruct (rp_q (fst (shape (sym_of (x_spec x')) (x_next_pos x) a))) eqn:Rp.
      { left. split; [reflexivity|]. intros f pos. cbn [shape fst]. apply flaw_here. apply flaw_rep_2; [reflexivity|]. apply rp_repeating.
        - rewrite <- E2. apply shape_bool.
        - rewrite <- Rp. apply shape_bool. }
      rewrite E3. cbn [pbind]. unfold stage_elem. rewrite E7. destruct (x_level x) as [off np n r|] eqn:El; [|easy].
      cbn [seq_result x_spec]. rewrite E10. split; [exact Sp|]. intros f F. specialize (H f F).
      assert (ES : shape (sym_of (x_spec x')) (x_next_pos x) a = shape f (x_next_pos x) a).
      { apply shape_ext. intros l Hl. specialize (F l Hl). specialize (F0 l Hl). congruence. }
      rewrite ES in *. cbn [shape fst leaves]. set (q := fst (shape f (x_next_pos x) a)) in *.
      destruct H as (_ & _ & x2' & i' & Y & Y1 & Y2 & Y3 & Y4 & Y5 & Y6 & Y7 & Y8). rewrite E3 in Y. injection Y as <- <-.
      eexists. cbn [x_elems x_levels x_seqs x_level x_next_pos x_st]. split; [now rewrite Y1|]. split.
      { constructor; [|constructor]. apply full_rep; cbn [e_type e_index e_collapsible e_is_param e_end_pos]; auto; [apply zero_iff|].
        rewrite Y5. apply shape_beyond. }
      split; [exact Y2|]. split; [exact Y3|]. split.
      { rewrite El. cbn [seq_level num_params takes_param nul_q nul_e rp_q rp_e]. rewrite Nu. destruct n, r; reflexivity. }
      split; [exact Y5|]. split; [exact Y6|]. cbn [ok_q ok_e]. rewrite E2, Nu, Rp. reflexivity.
    - destruct H as [(-> & H)|H]; [left|right; exact H]. split; [reflexivity|]. intros f pos. cbn [shape fst]. apply flaw_here. apply flaw_in_rep. apply H.
  Qed.

  Lemma jux_result a b x : spec_ok (x_spec x) -> is_seq (x_level x) ->
    seq_result a x (run pi a false x) -> (forall x1, spec_ok (x_spec x1) -> is_seq (x_level x1) -> seq_result b x1 (run pi b false x1)) ->
    seq_result (PJux a b) x (run pi (PJux a b) false x).
  Proof.
    intros Ok Ls Ha Hb. cbn [run]. destruct (run pi a false x) as [x1|c m|]; cbn [pbind seq_result] in *; [| |easy].
    - destruct Ha as (Sp & Ha). pose proof (resolves_sym (x_spec x1) (leaves a) (proj1 (proj2 (proj1 (proj2 Sp))))) as F0.
      assert (L1 : is_seq (x_level x1)).
      { destruct (Ha _ F0) as (es & _ & _ & _ & _ & E & _). rewrite E. now destruct (x_level x). }
      specialize (Hb x1 (proj1 Sp) L1). destruct (run pi b false x1) as [x2|c m|]; cbn [seq_result leaves] in *; [| |easy].
      + destruct Hb as (Sp2 & Hb). split; [now apply (spec_post_app _ _ _ (x_spec x1))|]. intros f F.
        assert (Fb : resolves f (leaves b) (x_spec x2)) by (intros l Hl; apply F; apply in_app_iff; now right).
        assert (Fa : resolves f (leaves a) (x_spec x1)).
        { apply (resolves_back f _ (leaves b) _ (x_spec x2)); [apply Sp2|apply Sp|]. intros l Hl. apply F. apply in_app_iff. now left. }
        destruct (Ha f Fa) as (es & A1 & A2 & A3 & A4 & A5 & A6 & A7 & A8). specialize (Hb f Fb).
        destruct Hb as (es2 & B1 & B2 & B3 & B4 & B5 & B6 & B7 & B8). cbn [shape fst]. rewrite A6 in *.
        exists (es ++ es2). split; [rewrite B1, A1, app_assoc; reflexivity|]. split; [apply full_list_app; [now apply (full_list_mono (x_st x1))|exact B2]|].
        split; [congruence|]. split; [congruence|]. split.
        { rewrite B5, A5. destruct (x_level x) as [off np n r|]; [|reflexivity]. cbn [seq_level]. rewrite params_app, nul_app, rp_app, Nat.add_assoc, andb_assoc.
          f_equal.
          destruct n, r, (nul_q (fst (shape f (x_next_pos x) a))), (rp_q (fst (shape f (x_next_pos x) a))),
            (nul_q (fst (shape f (x_next_pos x + length (leaves a)) b))), (rp_q (fst (shape f (x_next_pos x + length (leaves a)) b))); reflexivity. }
        split; [rewrite app_length; lia|]. split; [now apply (extends_trans _ (x_st x1))|]. now rewrite ok_app, A8, B8.
      + destruct Hb as [(-> & H)|H]; [left; split; [reflexivity|]; intros f pos; cbn [shape fst]; apply flaw_app; right; apply H|right].
        now apply (ref_error_app_r _ _ (x_spec x) (x_spec x1)).
    - destruct Ha as [(-> & H)|H]; [left; split; [reflexivity|]; intros f pos; cbn [shape fst]; apply flaw_app; left; apply H|right].
      now apply ref_error_app_l.
  Qed.

  (* a branch that is not itself alternatives *)
  Lemma plain_result t x : spec_ok (x_spec x) -> fresh x -> (forall f pos, snd (shape f pos t) = BOne (fst (shape f pos t))) ->
    run pi t true x = run pi t false x -> seq_result t x (run pi t false x) -> branch_result t x (run pi t true x).
  Proof.
    intros Ok (Lv & la & ls & Ll & Al) Sh -> H. destruct (run pi t false x) as [x'|c m|]; cbn [seq_result branch_result] in *; [| |easy].
    - destruct H as (Sp & H). split; [exact Sp|]. intros f F. destruct (H f F) as (es & A1 & A2 & A3 & A4 & A5 & A6 & A7 & A8).
      rewrite Sh. exists [], (fst (shape f (x_next_pos x) t)), [], es, la, ls. cbn [blist app fold_left]. rewrite app_nil_r.
      split; [reflexivity|]. split; [exact A4|]. split; [constructor|]. split; [exact A1|]. split; [exact A2|]. split; [exact Ll|]. split; [congruence|].
      split; [now rewrite A5, Lv|]. split; [exact A6|]. split; [exact A7|]. split; [cbn [forallb]; now rewrite A8|]. rewrite A6. apply shape_beyond.
    - destruct H as [(-> & H)|H]; [left|right; exact H]. split; [reflexivity|]. intros f pos. rewrite Sh. exists 0, (fst (shape f pos t)). split; [reflexivity|apply H].
  Qed.

  Lemma staged_sq st es q np : full_list st es q -> one_beyond (seq_syms q) np ->
    full_sq (grown st es [] []) (Seq (length es) (length (ps_elems st)) (num_params q) np (nul_q q)) q.
  Proof.
    intros H O. unfold full_sq. cbn [q_elems_offset q_num_elems q_num_params q_end_pos q_nullable]. split.
    - apply (full_list_elems _ _ _ (ps_elems st) []); [unfold grown; cbn [ps_elems]; now rewrite app_nil_r|]. eapply full_list_mono; [apply grown_extends|exact H].
    - split; [reflexivity|]. split; [exact O|apply nul_q_iff].
  Qed.

  Lemma alt_branch_result a b x : spec_ok (x_spec x) -> fresh x -> branch_result a x (run pi a true x) ->
    (forall x1, spec_ok (x_spec x1) -> fresh x1 -> branch_result b x1 (run pi b true x1)) ->
    branch_result (PAlt a b) x (run pi (PAlt a b) true x).
  Proof.
    intros Ok (Lv & la & ls & Ll & Al) Ha Hb. cbn [run]. destruct (run pi a true x) as [x1|c m|]; cbn [pbind branch_result] in *; [| |easy].
    - destruct Ha as (Sp & Ha). pose proof (resolves_sym (x_spec x1) (leaves a) (proj1 (proj2 (proj1 (proj2 Sp))))) as F0.
      destruct (Ha _ F0) as (qs & ql & sqs & es & la' & ls' & A1 & A2 & A3 & A4 & A5 & A6 & A7 & A8 & A9 & A10 & A11 & A12). rewrite Ll in A6. injection A6 as <- <-.
      rewrite (close_branch_eq x1 (x_elems x) es ql _ ls A4 A8 A7 (alt_steps_alt la qs Al)). cbn [pbind].
      match goal with |- context [run pi b true ?z] => set (x2 := z) end.
      assert (Fr : fresh x2) by (split; [reflexivity|]; eexists _, _; split; [reflexivity|]; destruct (fold_left alt_step qs la) eqn:Ef; [pose proof (alt_steps_alt la qs Al) as X; rewrite Ef in X; exact X|exact I]).
      specialize (Hb x2 (proj1 Sp) Fr). destruct (run pi b true x2) as [x3|c m|] eqn:Er; cbn [branch_result leaves pbind] in *; [| |easy].
      + destruct Hb as (Sp2 & Hb). change (x_spec x2) with (x_spec x1) in *. split; [now apply (spec_post_app _ _ _ (x_spec x1))|]. intros f F.
        assert (Fb : resolves f (leaves b) (x_spec x3)) by (intros l Hl; apply F; apply in_app_iff; now right).
        assert (Fa : resolves f (leaves a) (x_spec x1)).
        { apply (resolves_back f _ (leaves b) _ (x_spec x3)); [apply Sp2|apply Sp|]. intros l Hl. apply F. apply in_app_iff. now left. }
        assert (ES : shape (sym_of (x_spec x1)) (x_next_pos x) a = shape f (x_next_pos x) a).
        { apply shape_ext. intros l Hl. specialize (Fa l Hl). specialize (F0 l Hl). congruence. }
        rewrite ES in A1, A11. specialize (Hb f Fb).
        destruct Hb as (qs' & ql' & sqs' & es' & lb & ls' & B1 & B2 & B3 & B4 & B5 & B6 & B7 & B8 & B9 & B10 & B11 & B12).
        subst x2. cbn [open_seq x_levels x_seqs x_elems x_level x_next_pos x_st x_spec] in *. injection B6 as <- <-. rewrite A9 in *.
        exists (qs ++ [ql] ++ qs'), ql', (sqs ++ [Seq (length es) (length (ps_elems (x_st x1))) (num_params ql) (x_next_pos x + length (leaves a)) (nul_q ql)] ++ sqs'), es', la, ls.
        cbn [shape snd]. rewrite blist_app, A1, B1, <- !app_assoc. split; [reflexivity|].
        split; [now rewrite B2, A2, <- !app_assoc|]. split.
        { apply Forall2_app; [|apply Forall2_app; [|exact B3]].
          - apply (full_sqs_mono (x_st x1)); [|exact A3]. eapply extends_trans; [apply grown_extends|exact B10].
          - constructor; [|constructor]. apply (full_sq_mono (grown (x_st x1) es [] [])); [exact B10|]. now apply staged_sq. }
        split; [exact B4|]. split; [exact B5|]. split; [exact Ll|]. split; [rewrite B7, !fold_left_app; reflexivity|]. split; [exact B8|].
        split; [rewrite B9, app_length; lia|]. split; [eapply extends_trans; [exact A10|]; eapply extends_trans; [apply grown_extends|exact B10]|].
        split; [|exact B12]. rewrite A1 in A11. rewrite B1 in B11. rewrite app_assoc, forallb_app, A11, B11. reflexivity.
      + destruct Hb as [(-> & H)|H]; [left; split; [reflexivity|]; intros f pos|right].
        * destruct (H f (pos + length (leaves a))) as (k & q & E & Fl). cbn [shape snd]. rewrite blist_app. exists (length (blist (snd (shape f pos a))) + k), q.
          split; [rewrite nth_error_app2 by lia; rewrite <- E; f_equal; lia|exact Fl].
        * now apply (ref_error_app_r _ _ (x_spec x) (x_spec x1)).
    - destruct Ha as [(-> & H)|H]; [left; split; [reflexivity|]; intros f pos|right; now apply ref_error_app_l].
      destruct (H f pos) as (k & q & E & Fl). cbn [shape snd]. rewrite blist_app. exists k, q. split; [|exact Fl]. rewrite nth_error_app1; [exact E|].
      apply nth_error_Some. congruence.
  Qed.

  Lemma first_nul_spec qs : (forall k q, k < first_nul qs -> nth_error qs k = Some q -> nul_q q = false) /\
    (first_nul qs = length qs \/ exists q, nth_error qs (first_nul qs) = Some q /\ nul_q q = true).
  Proof.
    induction qs as [|q qs [IH1 IH2]]; cbn [first_nul length]; [split; [intros; lia|now left]|].
    destruct (nul_q q) eqn:E.
    - split; [intros; lia|]. right. now exists q.
    - split; [|destruct IH2 as [->|IH2]; [now left|now right]]. intros [|k] q' L H; [now injection H as <-|]. apply (IH1 k); [lia|exact H].
  Qed.

  Lemma alt_result a b x : spec_ok (x_spec x) -> is_seq (x_level x) ->
    branch_result (PAlt a b) (open_seq (open_alt x)) (run pi (PAlt a b) true (open_seq (open_alt x))) ->
    seq_result (PAlt a b) x (run pi (PAlt a b) false x).
  Proof.
    intros Ok Ls H.
    assert (E : run pi (PAlt a b) false x = let* x1 := run pi (PAlt a b) true (open_seq (open_alt x)) in finish_alt x1).
    { cbn [run]. rewrite !pbind_assoc. apply pbind_ext. intros x1. rewrite !pbind_assoc. apply pbind_ext. intros x2. rewrite !pbind_assoc. apply pbind_ext. intros x3. reflexivity. }
    rewrite E. clear E. set (t := PAlt a b) in *. destruct (run pi t true (open_seq (open_alt x))) as [x1|c m|]; cbn [pbind branch_result] in *; [| |easy].
    - destruct H as (Sp & H). change (x_spec (open_seq (open_alt x))) with (x_spec x) in *. change (x_next_pos (open_seq (open_alt x))) with (x_next_pos x) in *.
      pose proof (resolves_sym (x_spec x1) (leaves t) (proj1 (proj2 (proj1 (proj2 Sp))))) as F0.
      set (bs := snd (shape (sym_of (x_spec x1)) (x_next_pos x) t)) in *.
      destruct (H _ F0) as (qs & ql & sqs & es & la' & ls' & A1 & A2 & A3 & A4 & A5 & A6 & A7 & A8 & A9 & A10 & A11 & A12).
      cbn [open_seq open_alt x_levels x_seqs x_elems x_level x_next_pos x_st x_spec] in *. injection A6 as <- <-.
      fold bs in A1, A11. unfold finish_alt.
      rewrite (close_branch_eq x1 (x_elems x) es ql _ _ A4 A8 A7); [|apply alt_steps_alt; exact I]. cbn [pbind].
      assert (Lv : alt_step (fold_left alt_step qs (LAlt (length (x_seqs x)) 0 false false false false)) ql =
        LAlt (length (x_seqs x)) (first_nul (blist bs)) (nul_b bs) (rp_b bs) (existsb (fun q => 0 <? num_params q) (blist bs)) (multi bs)).
      { change (alt_step (fold_left alt_step qs ?l) ql) with (fold_left alt_step [ql] (fold_left alt_step qs l)). rewrite <- fold_left_app, <- A1, alt_steps.
        rewrite nul_b_list, rp_b_list, multi_list. reflexivity. }
      rewrite Lv. cbn [x_level]. destruct (multi bs) eqn:Mu.
      { left. split; [reflexivity|]. intros f pos.
        assert (M2 : multi (snd (shape f pos t)) = true).
        { rewrite multi_list in Mu |- *. rewrite <- Mu. f_equal. apply shape_bool. }
        change (fst (shape f pos t)) with (SCons (EAlt (snd (shape f pos t))) SNil). apply flaw_here.
        apply multi_iff in M2 as (k & l & qk & ql2 & Lt & Bk & Bl & Nk & Nl). now apply (flaw_alt _ _ k l qk ql2). }
      set (sq := Seq (length es) (length (ps_elems (x_st x1))) (num_params ql) (x_next_pos x1) (nul_q ql)).
      match goal with |- context [close_alt ?z] => rewrite (close_alt_eq z (x_seqs x) (sqs ++ [sq]) (length (x_seqs x)) (first_nul (blist bs)) (nul_b bs) (rp_b bs)
        (existsb (fun q => 0 <? num_params q) (blist bs)) false (x_level x) (x_levels x)) end;
        [|cbn [x_seqs]; rewrite A2, <- app_assoc; reflexivity|reflexivity|reflexivity|reflexivity].
      cbn [pbind x_elems x_next_pos x_st x_spec]. unfold stage_elem. cbn [x_level]. destruct (x_level x) as [off np n r|] eqn:El; [|easy].
      cbn [seq_result x_spec x_levels x_seqs x_elems x_next_pos x_st]. split; [exact Sp|]. intros f F.
      assert (ES : shape (sym_of (x_spec x1)) (x_next_pos x) t = shape f (x_next_pos x) t).
      { apply shape_ext. intros l Hl. specialize (F l Hl). specialize (F0 l Hl). congruence. }
      change (fst (shape f (x_next_pos x) t)) with (SCons (EAlt (snd (shape f (x_next_pos x) t))) SNil). rewrite <- ES. fold bs.
      eexists. cbn [x_elems x_levels x_seqs x_level x_next_pos x_st]. split; [reflexivity|].
      set (st2 := grown (x_st x1) es [] []) in *.
      assert (Sq : Forall2 (full_sq st2) (sqs ++ [sq]) (blist bs)).
      { rewrite A1. apply Forall2_app; [apply (full_sqs_mono (x_st x1)); [apply grown_extends|exact A3]|]. constructor; [|constructor]. now apply staged_sq. }
      assert (SB : branches_syms bs = seq_syms (fst (shape f (x_next_pos x) t))).
      { unfold bs. rewrite ES. apply shape_syms. }
      assert (Len : length (sqs ++ [sq]) = length (blist bs)) by (clear - Sq; induction Sq; cbn; congruence).
      split.
      { constructor; [|constructor]. eapply full_alt; cbn [e_type e_index e_collapsible e_is_param e_end_pos].
        - reflexivity.
        - unfold grown at 1. cbn [ps_alts]. rewrite nth_error_app2, Nat.sub_diag by lia. reflexivity.
        - cbn [a_seqs_offset a_num_seqs]. apply (full_sqs_branches _ bs (sqs ++ [sq]) (ps_seqs st2) []).
          + unfold grown at 1. cbn [ps_seqs]. now rewrite app_nil_r.
          + eapply full_sqs_mono; [apply grown_extends|exact Sq].
        - rewrite negb_true_iff. split.
          + intros Hf k q Hk. rewrite branch_nth in Hk. apply nth_error_In in Hk.
            destruct (Nat.eq_dec (num_params q) 0) as [Z|Z]; [exact Z|]. exfalso. apply not_true_iff_false in Hf. apply Hf. apply existsb_exists. exists q. split; [exact Hk|]. apply Nat.ltb_lt. lia.
          + intros Hf. apply not_true_iff_false. intros Ht. apply existsb_exists in Ht as (q & Hq & Hp). apply Nat.ltb_lt in Hp.
            apply In_nth_error in Hq as (k & Hk). specialize (Hf k q). rewrite branch_nth in Hf. specialize (Hf Hk). lia.
        - reflexivity.
        - rewrite SB, A9. apply shape_beyond.
        - cbn [a_nullable_seq_index]. intros k q Hk Hb. rewrite branch_nth in Hb. apply nul_q_false. now apply (proj1 (first_nul_spec (blist bs)) k).
        - cbn [a_nullable_seq_index a_num_seqs]. destruct (proj2 (first_nul_spec (blist bs))) as [Hf|(q & Hq & Hn)]; [left; congruence|right].
          exists q. rewrite branch_nth. split; [exact Hq|now apply nul_q_iff]. }
      split; [reflexivity|]. split; [reflexivity|]. split.
      { rewrite El. cbn [seq_level num_params takes_param nul_q nul_e rp_q rp_e]. rewrite !andb_true_r, andb_false_r, orb_false_r. reflexivity. }
      split; [exact A9|]. split; [eapply extends_trans; [exact A10|]; eapply extends_trans; apply grown_extends|].
      cbn [ok_q ok_e]. rewrite ok_b_list, A11, Mu. reflexivity.
    - destruct H as [(-> & H)|H]; [left|right; exact H]. split; [reflexivity|]. intros f pos. destruct (H f pos) as (k & q & Ek & Fl).
      cbn [shape fst t]. apply flaw_here. apply (flaw_in_alt m _ k q); [|exact Fl]. rewrite branch_nth. exact Ek.
  Qed.

  Theorem run_result t : (forall l, In l (leaves t) -> leaf_ok l) ->
    (forall x, spec_ok (x_spec x) -> is_seq (x_level x) -> seq_result t x (run pi t false x)) /\
    (forall x, spec_ok (x_spec x) -> fresh x -> branch_result t x (run pi t true x)).
  Proof.
    assert (FS : forall x, fresh x -> is_seq (x_level x)) by (intros x [-> _]; exact I).
    assert (Pl : forall t, (forall f pos, snd (shape f pos t) = BOne (fst (shape f pos t))) -> (forall x, run pi t true x = run pi t false x) ->
      (forall x, spec_ok (x_spec x) -> is_seq (x_level x) -> seq_result t x (run pi t false x)) ->
      (forall x, spec_ok (x_spec x) -> is_seq (x_level x) -> seq_result t x (run pi t false x)) /\
      (forall x, spec_ok (x_spec x) -> fresh x -> branch_result t x (run pi t true x))).
    { intros t0 H1 H2 H3. split; [exact H3|]. intros x Ok Fr. apply plain_result; auto. }
    induction t as [l|a IH|a IH|a IHa b IHb|a IHa b IHb]; cbn [leaves]; intros Lo.
    - apply Pl; [reflexivity|reflexivity|]. intros x Ok Ls. cbn [run]. apply leaf_result; auto. apply Lo. now left.
    - apply Pl; [reflexivity|reflexivity|]. intros x Ok Ls. apply opt_result; auto. apply (proj1 (IH Lo)); [exact Ok|exact I].
    - apply Pl; [reflexivity|reflexivity|]. intros x Ok Ls. apply rep_result; auto. apply (proj1 (IH Lo)); [exact Ok|exact I].
    - assert (La : forall l, In l (leaves a) -> leaf_ok l) by (intros l Hl; apply Lo; apply in_app_iff; now left).
      assert (Lb : forall l, In l (leaves b) -> leaf_ok l) by (intros l Hl; apply Lo; apply in_app_iff; now right).
      apply Pl; [reflexivity|reflexivity|]. intros x Ok Ls. apply jux_result; auto; [now apply (proj1 (IHa La))|]. exact (proj1 (IHb Lb)).
    - assert (La : forall l, In l (leaves a) -> leaf_ok l) by (intros l Hl; apply Lo; apply in_app_iff; now left).
      assert (Lb : forall l, In l (leaves b) -> leaf_ok l) by (intros l Hl; apply Lo; apply in_app_iff; now right).
      assert (B : forall x, spec_ok (x_spec x) -> fresh x -> branch_result (PAlt a b) x (run pi (PAlt a b) true x)).
      { intros x Ok Fr. apply alt_branch_result; auto; [now apply (proj2 (IHa La))|]. exact (proj2 (IHb Lb)). }
      split; [|exact B]. intros x Ok Ls. apply alt_result; auto. apply B; [exact Ok|]. split; [reflexivity|]. eexists _, _. split; [reflexivity|exact I].
  Qed.
End Main.
