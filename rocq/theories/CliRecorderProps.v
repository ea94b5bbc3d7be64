(* Theorems about the recorder of pattern structures (properties C78 and C79). *)
From Coq Require Import List Arith Bool ZArith Lia.
From Verif Require Import CliPatternModel CliPatternSpec CliTreeProofs CliSpecModel CliRecorderModel CliRecorderSpec CliAmbigProofs CliValueProofs CliSpecProofs CliRecorderProofs CliRecorderProofs2 CliRecorderProofs3 CliRecorderProofs4.
Import ListNotations.

(* ---- C79: structural ambiguity ---- *)

(* The rules are broken if, and only if there are matches that have more than one value. *)
Theorem ambiguity_exact q : numbered q -> ((exists m, flaw_seq m q) <-> ambiguous q).
Proof. exact (ambiguous_iff q). Qed.
Print Assumptions ambiguity_exact.

(* When no rule is broken, matches, regardless of which arguments they are made with, have
   exactly one value; otherwise, there is a sequence of positions for which there is more
   than one value regardless of arguments. *)
Theorem value_unique q : numbered q ->
  ((forall m, ~ flaw_seq m q) -> forall u w, m_seq q u -> map fst u = map fst w -> exists! v, val_seq q w v) /\
  ((exists m, flaw_seq m q) -> exists u, m_seq q u /\ forall w, map fst u = map fst w -> exists v v', val_seq q w v /\ val_seq q w v' /\ v <> v').
Proof.
  intros N. split.
  - intros F u w M E. destruct (seq_val q u w M E) as (v & V). exists v. split; [exact V|]. intros v' V'.
    apply (unique_value q w); auto. now apply ok_iff.
  - intros (m & F). destruct (proj2 (flaw_twofold m) q F) as (ps & T).
    destruct (T (map (fun p => (p, 0)) ps)) as (v & _ & V & _); [rewrite map_map; apply map_id|].
    apply val_matches in V as (u & M & E). rewrite map_map in E. cbn [fst] in E. rewrite map_id in E. exists u. split; [exact M|].
    intros w Ew. apply T. congruence.
Qed.
Print Assumptions value_unique.

(* <a> [(<b> | -x)...] *)
Definition ex_q : tseq :=
  SCons (ESym 0 (Psym s_value_slot 0)) (SCons (EOpt (SCons (ERep (SCons (EAlt (BCons (SCons (ESym 1 (Psym s_value_slot 0)) SNil)
    (BOne (SCons (ESym 2 (Psym s_proto_option 0)) SNil)))) SNil)) SNil)) SNil).
Example value_unique_ex : numbered ex_q /\ (forall m, ~ flaw_seq m ex_q) /\
  val_seq ex_q [(0, 5); (2, 6); (1, 8)] [VSym 0 5; VPresent [VRep [[VAlt 1 [VSym 2 6]]; [VAlt 0 [VSym 1 8]]]]].
Proof.
  assert (N : numbered ex_q) by reflexivity. split; [exact N|]. split; [apply ok_iff; [exact N|reflexivity]|].
  change [(0, 5); (2, 6); (1, 8)] with ([(0, 5)] ++ ((([(2, 6)] ++ []) ++ []) ++ (([(1, 8)] ++ []) ++ [])) ++ [] ++ []).
  apply val_cons; [apply val_sym|]. rewrite app_assoc. apply val_cons; [|apply val_nil]. apply val_present. apply val_cons; [|apply val_nil].
  apply val_rep. apply val_more; [|apply val_last]; (apply val_cons; [|apply val_nil]).
  - apply (val_alt _ 1 (SCons (ESym 2 (Psym s_proto_option 0)) SNil)); [reflexivity|]. apply val_cons; [apply val_sym|apply val_nil].
  - apply (val_alt _ 0 (SCons (ESym 1 (Psym s_value_slot 0)) SNil)); [reflexivity|]. apply val_cons; [apply val_sym|apply val_nil].
Qed.
Example ambiguity_ex : ambiguous (SCons (ERep (SCons (ERep (SCons (ESym 0 (Psym s_value_slot 0)) SNil)) SNil)) SNil).
Proof. apply ambiguity_exact; [reflexivity|]. apply (proj1 (proj2 not_ok_flaw)). reflexivity. Qed.

(* ---- C78: the recorder ---- *)

(* a pattern that is possibly empty *)
Definition rep_root (nodes : list node) (i : option nat) (t : option ptree) : Prop :=
  match i, t with
  | Some i, Some t => rep_node nodes i t
  | None, None => True
  | _, _ => False
  end.
Definition root_leaves (t : option ptree) : list leaf := match t with Some t => leaves t | None => [] end.

Lemma add_seq_eq x es np nul : x_elems x = es -> x_seqs x = [] -> exists x', add_seq x 0 np nul = POk (x', length (ps_seqs (x_st x))) /\
  x_st x' = grown (x_st x) es [Seq (length es) (length (ps_elems (x_st x))) np (x_next_pos x) nul] [] /\ x_spec x' = x_spec x.
Proof.
  intros E1 E2. unfold add_seq. pose proof (stage_seq_eq x [] es np nul E1) as Es. cbn [length] in Es. rewrite Es. cbn [pbind x_seqs]. rewrite E2.
  cbn [app length Nat.sub nth_error pget pbind firstn]. unfold grown. cbn [x_st ps_syms ps_elems ps_seqs ps_alts]. rewrite !app_nil_r.
  eexists. split; [reflexivity|]. split; reflexivity.
Qed.

Theorem record_exact nodes i t : rep_root nodes i t -> (forall l, In l (root_leaves t) -> leaf_ok l) ->
  exists fuel0, forall pattern_index st s fuel, spec_ok s -> fuel0 <= fuel ->
  match record nodes pattern_index fuel i st s with
  | POk (st', s', k) =>
    let q := elements (sym_of s') t in
    full_seq st' k q /\ numbered q /\ extends st st' /\
    spec_ok s' /\ recorded pattern_index (root_leaves t) s s' /\
    (forall m, ~ flaw_seq m q) /\ (forall l m, In l (root_leaves t) -> ~ bad_ref s l m)
  | PErr c m =>
    (c = bad_pattern_syntax /\ forall f, flaw_seq m (elements f t)) \/
    (c = bad_option_ref /\ exists l, In l (root_leaves t) /\ bad_ref s l m)
  | PBad => False
  end.
Proof.
  intros R Lo. destruct i as [i|], t as [t|]; try easy; cbn [root_leaves elements rep_root] in *.
  - exists (cost t + 1). intros pattern_index st s fuel Ok Hf. destruct (loop_run pattern_index nodes t i R) as (nd & En & H).
    unfold record. rewrite En. cbn [pget pbind]. replace fuel with (cost t + S (fuel - cost t - 1)) by lia. rewrite H. cbn [is_alternatives].
    set (x0 := Rstate [] [] [] (LSeq 0 0 true false) 0 st s).
    pose proof (proj1 (run_result pattern_index t Lo) x0 Ok I) as Res. destruct (run pattern_index t false x0) as [x1|c m|]; cbn [pbind seq_result] in *; [| |easy].
    + destruct Res as (Sp & Res). cbn [record_loop pbind].
      pose proof (resolves_sym (x_spec x1) (leaves t) (proj1 (proj2 (proj1 (proj2 Sp))))) as F0.
      destruct (Res _ F0) as (es & A1 & A2 & A3 & A4 & A5 & A6 & A7 & A8). cbn [x0 x_elems x_level x_levels x_seqs x_next_pos x_st seq_level andb orb app plus] in *.
      rewrite A5, A3. cbn [andb orb]. set (q := fst (shape (sym_of (x_spec x1)) 0 t)) in *.
      destruct (add_seq_eq x1 es (num_params q) (nul_q q) A1 A4) as (x2 & -> & Est & Esp). cbn [pbind]. rewrite Est, Esp. fold q. clear x2 Est Esp.
      set (st2 := grown (x_st x1) es [Seq (length es) (length (ps_elems (x_st x1))) (num_params q) (x_next_pos x1) (nul_q q)] []).
      assert (X : extends (x_st x1) st2) by apply grown_extends.
      assert (N : numbered q) by apply (shape_from (sym_of (x_spec x1)) t 0).
      split.
      { eapply full_seq_intro.
        - unfold st2, grown. cbn [ps_seqs]. rewrite nth_error_app2, Nat.sub_diag by lia. reflexivity.
        - cbn [q_elems_offset q_num_elems]. apply (full_list_elems _ _ _ (ps_elems (x_st x1)) []); [unfold st2, grown; cbn [ps_elems]; now rewrite app_nil_r|].
          eapply full_list_mono; [exact X|exact A2].
        - reflexivity.
        - cbn [q_end_pos]. rewrite A6. apply shape_beyond.
        - apply nul_q_iff. }
      split; [exact N|]. split; [now apply (extends_trans _ (x_st x1))|]. split; [apply Sp|]. split; [apply Sp|]. split; [now apply ok_iff|apply Sp].
    + destruct Res as [(-> & Fl)|Rf]; [left; auto|right; exact Rf].
  - exists 0. intros pattern_index st s fuel Ok _. unfold record. cbn [pbind x_level x_levels]. unfold add_seq, stage_seq. cbn.
    rewrite app_nil_r. split.
    { eapply full_seq_intro; [cbn [ps_seqs]; rewrite nth_error_app2, Nat.sub_diag by lia; reflexivity| | | |]; cbn [q_elems_offset q_num_elems q_num_params q_end_pos q_nullable].
      - constructor.
      - reflexivity.
      - reflexivity.
      - split; [intros _; constructor|reflexivity]. }
    split; [reflexivity|]. split; [repeat split; cbn; eexists; try reflexivity; symmetry; apply app_nil_r|].
    split; [exact Ok|]. split; [apply recorded_refl|]. split; [intros m H; inversion H|intros l m []].
Qed.
Print Assumptions record_exact.

(* The structure is one that the matcher can be built from (C74). *)
Lemma full_rep st :
  (forall e t, full_elem st e t -> rep_elem st e t) /\ (forall i n q, full_elems st i n q -> rep_elems st i n q) /\
  (forall i q, full_seq st i q -> rep_seq st i q) /\ (forall i n t, full_branches st i n t -> rep_branches st i n t).
Proof.
  set (P := fun e t (_ : full_elem st e t) => rep_elem st e t).
  set (Q := fun i n q (_ : full_elems st i n q) => rep_elems st i n q).
  set (R := fun i q (_ : full_seq st i q) => rep_seq st i q).
  set (T := fun i n t (_ : full_branches st i n t) => rep_branches st i n t).
  cut ((forall e t H, P e t H) /\ (forall i n q H, Q i n q H) /\ (forall i q H, R i q H) /\ (forall i n t H, T i n t H)).
  { unfold P, Q, R, T. intros (A & B & C & D). repeat split; intros; auto. }
  apply full_ind; unfold P, Q, R, T; clear P Q R T; intros.
  - now apply rep_sym.
  - now apply rep_opt.
  - now apply rep_rep.
  - eapply rep_alt; eassumption.
  - constructor.
  - eapply rep_cons; eassumption.
  - eapply rep_seq_intro; eassumption.
  - now constructor.
  - now constructor.
Qed.

Lemma full_rep_pattern st k q : full_seq st k q -> numbered q -> rep_pattern st k q.
Proof.
  intros F N. split; [now apply full_rep|]. split; [exact N|]. inversion F as [? sq ? E _ _ B _]; subst. exists sq. split; [exact E|].
  unfold numbered in N. unfold one_beyond in B. destruct (seq_syms q) as [|x l] eqn:Es; [exact B|].
  assert (NE : x :: l <> []) by discriminate. destruct (@exists_last _ (x :: l) NE) as (l' & [p y] & El). rewrite El in *.
  rewrite rev_app_distr in B. cbn [rev app] in B. rewrite map_app, app_length in N. cbn [map fst length] in N. rewrite Nat.add_1_r, seq_S in N.
  apply app_inj_tail in N as [_ Np]. rewrite app_length. cbn. lia.
Qed.

(* A pattern is rejected for its structure if, and only if it is structurally ambiguous,
   provided that it refers to no option that does not allow for it. *)
Theorem record_rejects_ambiguous nodes pattern_index i t st s : rep_root nodes i t -> spec_ok s ->
  (forall l, In l (root_leaves t) -> leaf_ok l) -> (forall l m, In l (root_leaves t) -> ~ bad_ref s l m) ->
  forall f, exists fuel0, forall fuel, fuel0 <= fuel ->
  ((exists c m, record nodes pattern_index fuel i st s = PErr c m) <-> ambiguous (elements f t)) /\
  ((exists st' s' k, record nodes pattern_index fuel i st s = POk (st', s', k) /\ rep_pattern st' k (elements (sym_of s') t)) <-> ~ ambiguous (elements f t)).
Proof.
  intros R Ok Lo NB f. destruct (record_exact nodes i t R Lo) as (fuel0 & H). exists fuel0. intros fuel Hf. specialize (H pattern_index st s fuel Ok Hf).
  assert (Nf : numbered (elements f t)) by (destruct t; [apply (shape_from f p 0)|reflexivity]).
  destruct (record nodes pattern_index fuel i st s) as [[[st' s'] k]|c m|]; [| |easy].
  - cbn zeta in H. destruct H as (F & N & _ & _ & _ & Fl & _).
    assert (NA : ~ ambiguous (elements f t)).
    { rewrite <- ambiguous_iff by exact Nf. intros (m & Hm).
      assert (O : ok_q (elements (sym_of s') t) = true) by now apply ok_iff.
      assert (O' : ok_q (elements f t) = true) by (destruct t as [t|]; [rewrite <- O; apply shape_bool|reflexivity]).
      apply (proj1 (ok_iff _ Nf) O' m Hm). }
    split.
    + split; [intros (c & m & X); discriminate|]. intros A. now destruct NA.
    + split; [auto|]. intros _. exists st', s', k. split; [reflexivity|]. now apply full_rep_pattern.
  - assert (A : ambiguous (elements f t)).
    { apply ambiguous_iff; [exact Nf|]. destruct H as [(_ & H)|(_ & l & Hl & B)]; [exists m; apply H|]. now destruct (NB l m Hl). }
    split.
    + split; [auto|]. intros _. eauto.
    + split; [intros (st' & s' & k & X & _); discriminate|]. intros NA. now destruct NA.
Qed.
Print Assumptions record_rejects_ambiguous.

(* foo [-x <a>] (<b> | --bar...) as nodes, in the order in which the parser makes them *)
Definition ex_nodes : list node :=
  [ Node n_keyword 0 0 [102; 111; 111];                  (* 0: foo *)
    Node n_short_option 0 0 [45; 120];                   (* 1: -x *)
    Node n_value_slot 0 0 [60; 97; 62];                  (* 2: <a> *)
    Node n_juxtaposition 1 2 [];                         (* 3 *)
    Node n_optionality 3 0 [];                           (* 4 *)
    Node n_juxtaposition 0 4 [];                         (* 5 *)
    Node n_value_slot 0 0 [60; 98; 62];                  (* 6: <b> *)
    Node n_long_option 0 0 [45; 45; 98; 97; 114];        (* 7: --bar *)
    Node n_repetition 7 0 [];                            (* 8 *)
    Node n_alternatives 6 8 [];                          (* 9 *)
    Node n_juxtaposition 5 9 [] ].                       (* 10 *)
Definition ex_tree : ptree :=
  PJux (PJux (PLeaf (LKeyword [102; 111; 111])) (POpt (PJux (PLeaf (LShort [45; 120])) (PLeaf (LSlot [60; 97; 62])))))
       (PAlt (PLeaf (LSlot [60; 98; 62])) (PRep (PLeaf (LLong [45; 45; 98; 97; 114])))).

(* option --bar, which takes no argument and has no attributes *)
Definition ex_spec : spec :=
  Spec [] [Proto None (Some 0)] [Oform true [45; 45; 98; 97; 114]] 0 [Optspec (0, 1) (Argspec false false) 0 (Action false false)] [] [] [([98; 97; 114], 0)].

Lemma ex_spec_ok : spec_ok ex_spec.
Proof.
  split; [|split; [|split]].
  - intros t i. cbn. split; [discriminate|]. now destruct i.
  - cbn. discriminate.
  - intros t i. unfold find_long. cbn [ex_spec k_long_map k_protos mfind length]. destruct (text_eqb t [98; 97; 114]); [|discriminate]. intros [= <-]. lia.
  - intros [|i] p o; cbn; [intros [= <-] [= <-]; lia|]. destruct i; discriminate.
Qed.

Lemma ex_rep_root : rep_root ex_nodes (Some 10) (Some ex_tree).
Proof.
  cbn [rep_root].
  assert (L0 : rep_node ex_nodes 0 (PLeaf (LKeyword [102; 111; 111]))) by (eapply rn_leaf; reflexivity).
  assert (L1 : rep_node ex_nodes 1 (PLeaf (LShort [45; 120]))) by (eapply rn_leaf; reflexivity).
  assert (L2 : rep_node ex_nodes 2 (PLeaf (LSlot [60; 97; 62]))) by (eapply rn_leaf; reflexivity).
  assert (L6 : rep_node ex_nodes 6 (PLeaf (LSlot [60; 98; 62]))) by (eapply rn_leaf; reflexivity).
  assert (L7 : rep_node ex_nodes 7 (PLeaf (LLong [45; 45; 98; 97; 114]))) by (eapply rn_leaf; reflexivity).
  eapply rn_jux; [reflexivity| |].
  - eapply rn_jux; [reflexivity|exact L0|]. eapply rn_opt; [reflexivity|]. eapply rn_jux; [reflexivity|exact L1|exact L2].
  - eapply rn_alt; [reflexivity|exact L6|]. eapply rn_rep; [reflexivity|exact L7].
Qed.

Example record_exact_ex :
  rep_root ex_nodes (Some 10) (Some ex_tree) /\ spec_ok ex_spec /\ (forall l, In l (leaves ex_tree) -> leaf_ok l) /\
  (forall l m, In l (leaves ex_tree) -> ~ bad_ref ex_spec l m) /\
  match record ex_nodes 3 30 (Some 10) (Structure [] [] [] []) ex_spec with
  | POk (st, s, k) =>
    k = 4 /\ map s_type (ps_syms st) = [s_keyword; s_proto_option; s_value_slot; s_value_slot; s_proto_option] /\
    map s_index (ps_syms st) = [0; 1; 0; 0; 0] /\
    nth_error (ps_seqs st) 4 = Some (Seq 3 5 2 5 false) /\
    k_protos s = [Proto (Some 3) (Some 0); Proto (Some 3) None]
  | _ => False
  end.
Proof.
  split; [exact ex_rep_root|]. split; [exact ex_spec_ok|]. split; [|split].
  - intros l H. cbn in H. repeat destruct H as [<-|H]; cbn; try lia; easy.
  - intros l m H (i & p & j & o & B1 & B2 & B3 & B4 & B5).
    assert (Eo : o = Optspec (0, 1) (Argspec false false) 0 (Action false false)).
    { cbn [ex_spec k_protos k_options] in *. destruct i as [|[|i]]; cbn in B2; try discriminate. injection B2 as <-. cbn in B3. injection B3 as <-. cbn in B4. congruence. }
    subst o. destruct B5 as [(_ & X)|[(_ & X)|(_ & X)]]; cbn in X; congruence.
  - vm_compute. repeat split.
Qed.

(* [[-x]] is structurally ambiguous, and yet not reported as such. *)
Theorem structural_ambiguity_code_refuted : exists nodes i t,
  rep_root nodes (Some i) (Some t) /\ (forall f, ambiguous (elements f (Some t))) /\
  forall pattern_index st s fuel, spec_ok s -> (forall l m, In l (leaves t) -> ~ bad_ref s l m) -> 6 <= fuel ->
    record nodes pattern_index fuel (Some i) st s = PErr bad_pattern_syntax opt_nullable.
Proof.
  exists [Node n_short_option 0 0 [45; 120]; Node n_optionality 0 0 []; Node n_optionality 1 0 []], 2, (POpt (POpt (PLeaf (LShort [45; 120])))).
  assert (R : rep_root [Node n_short_option 0 0 [45; 120]; Node n_optionality 0 0 []; Node n_optionality 1 0 []] (Some 2) (Some (POpt (POpt (PLeaf (LShort [45; 120])))))).
  { cbn [rep_root]. eapply rn_opt; [reflexivity|]. eapply rn_opt; [reflexivity|]. apply (rn_leaf _ 0 (LShort [45; 120]) 0 0). reflexivity. }
  assert (Amb : forall f, ambiguous (elements f (Some (POpt (POpt (PLeaf (LShort [45; 120]))))))).
  { intros f. apply ambiguity_exact; [reflexivity|]. apply (proj1 (proj2 not_ok_flaw)). reflexivity. }
  split; [exact R|]. split; [exact Amb|]. intros pi st s fuel Ok NB Hf.
  destruct (loop_run pi _ _ _ R) as (nd & En & H). unfold record. rewrite En. cbn [pget pbind].
  replace fuel with (cost (POpt (POpt (PLeaf (LShort [45; 120])))) + (fuel - 5)) by (cbn [cost]; lia). rewrite H. cbn [is_alternatives run].
  set (x0 := open_seq (open_seq (Rstate [] [] [] (LSeq 0 0 true false) 0 st s))).
  pose proof (leaf_result pi (LShort [45; 120]) x0 Ok (le_n 2) I) as L. destruct (run_leaf pi (LShort [45; 120]) x0) as [x1|c m|]; cbn [seq_result pbind] in *; [| |easy].
  - destruct L as (Sp & L). pose proof (resolves_sym (x_spec x1) _ (proj1 (proj2 (proj1 (proj2 Sp))))) as F0.
    destruct (L _ F0) as (es & A1 & _ & A3 & _ & A5 & _). unfold finish_opt at 1. rewrite A5.
    cbn [x0 open_seq x_level seq_level shape fst nul_q nul_e rp_q rp_e andb orb x_levels x_elems] in *.
    rewrite (close_seq_eq x1 [] es _ _ _ _ _ A1 A5 A3). cbn [pbind stage_elem x_level]. reflexivity.
  - exfalso. destruct L as [(_ & Fl)|(_ & l & Hl & B)].
    + specialize (Fl (fun _ => dummy_symbol) 0). cbn [shape fst] in Fl. inversion Fl as [? ? Fe|? ? Fe]; subst; inversion Fe.
    + now apply (NB l m).
Qed.
Print Assumptions structural_ambiguity_code_refuted.
