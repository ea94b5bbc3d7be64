(* Interpretation of command-line arguments: the code arrives at what the specification says. *)
From Coq Require Import List Arith Bool ZArith Lia.
From Verif Require Import CliPatternModel CliMatcherModel CliMatcherSpec CliPatternSpec CliSpecModel CliRecorderModel CliRecorderSpec
  CliOptionProps CliProcessorModel CliProcessorSpec CliProcessorProofs CliProcessorProofs2 ArrLib.
Import ListNotations.

Lemma text_length_app (a b : text) : length (a ++ b) = length a + length b.
Proof. apply app_length. Qed.

Section Sim.
  Variable dash equal : nat.
  Variable s : spec.
  Variable args : list text.
  Variable ts : list tseq.
  Variable delegs : list bool.
  Variable m0 : matcher.
  Hypothesis Hok : spec_ok s.
  Hypothesis Hargs : args_known s.
  Hypothesis Hact : actions_fit s.
  Hypothesis Hdel : forall m acc, reached m0 m acc -> m_delegs m = delegs.
  Hypothesis Hlen : length delegs = length ts.
  Hypothesis Hm : forall m acc, reached m0 m acc ->
    let w := map fst acc in
    (forall y a, a < length args -> exists m' b, consume m y a = Ok (m', b) /\ (b = true <-> viable ts (w ++ [y])) /\ (b = false -> m' = m)) /\
    (exists o, is_match m = Ok o /\ forall i, o = Some i <-> first_match ts i w) /\
    (exists b, can_consume m = Ok b /\ (b = true <-> exists i y u, matches ts i (w ++ y :: u))) /\
    (exists b, can_delegate m = Ok b /\ (b = true <-> exists i u, nth_error delegs i = Some true /\ matches ts i (w ++ u))).

  Definition mk (i : nat) (vals : bool) (off : nat) (inp : bool) (pr : nat) (opt : option nat) (a1 a2 : text) (occ : occurrence)
    (m : matcher) (g : progress) : pstate :=
    Pstate i (g_lost g) vals off inp pr opt (g_failed g) a1 a2 occ m (g_options g) (g_errors g).

  Definition fine (m : matcher) (g : progress) : Prop := reached m0 m (g_symbols g) /\ (g_lost g = true -> g_failed g = true).

  Definition pruns (l : plabel) (v : pstate) (r : poutcome * pstate) : Prop :=
    exists f, forall fuel, f <= fuel -> prun dash equal s args fuel l v = Some r.
  Lemma pruns_step l v l' v' r : pstep dash equal s args l v = Some (inl (l', v')) -> pruns l' v' r -> pruns l v r.
  Proof.
    intros E (f & H). exists (S f). intros [|fuel] Hf; [lia|]. cbn [prun]. rewrite E. cbn [obind]. apply H. lia.
  Qed.
  Lemma pruns_done l v r : pstep dash equal s args l v = Some (inr r) -> pruns l v r.
  Proof. intros E. exists 1. intros [|fuel] Hf; [lia|]. cbn [prun]. rewrite E. reflexivity. Qed.

  (* what is done from a label on: it ends, or it goes on from another label *)
  Definition leads (l : plabel) (v : pstate) (vd : verdict) (l' : plabel) (v' : pstate) : Prop :=
    match vd with
    | VGoOn => forall r, pruns l' v' r -> pruns l v r
    | VStop => pruns l v (RFailed, v')
    | VShort d => pruns l v (RShorted d, v')
    end.
  Lemma leads_step l v l1 v1 vd l' v' : pstep dash equal s args l v = Some (inl (l1, v1)) -> leads l1 v1 vd l' v' -> leads l v vd l' v'.
  Proof. intros E H. destruct vd; cbn in *; intros; eapply pruns_step; eauto. Qed.

  Lemma match_error_leads i vals off inp pr opt a1 a2 occ m g : fine m g -> g_failed g = true ->
    exists g' vd, gives_up ts delegs g g' vd /\ fine m g' /\
      leads pattern_match_error (mk i vals off inp pr opt a1 a2 occ m g) vd maybe_short_form_continuation (mk i vals off inp pr opt a1 a2 occ m g').
  Proof.
    intros [R F] Hf. destruct (Hm _ _ R) as (_ & _ & _ & b & E & B). destruct b.
    - exists g, VStop. split; [apply gu_stop; now apply B|]. split; [now split|]. cbn [leads].
      eapply pruns_step; [cbn [pstep v_matcher mk]; rewrite E; reflexivity|]. apply pruns_done. cbn [pstep mk v_has_error]. rewrite Hf. reflexivity.
    - exists (lost g), VGoOn. split; [apply gu_on; intros X; apply B in X; discriminate|]. split; [now split|].
      intros r H. eapply pruns_step; [cbn [pstep v_matcher mk]; rewrite E; reflexivity|]. exact H.
  Qed.

  Lemma rejected_leads i vals off inp pr opt a1 a2 occ m g y : fine m g -> g_lost g = false -> ~ viable ts (g_word g ++ [y]) ->
    exists g' vd, put ts delegs a1 y i g g' vd /\ fine m g' /\
      leads rejected_pattern_arg (mk i vals off inp pr opt a1 a2 occ m g) vd maybe_short_form_continuation (mk i vals off inp pr opt a1 a2 occ m g').
  Proof.
    intros [R F] Hl V. destruct (Hm _ _ R) as (_ & _ & (b & E & B) & _).
    set (g1 := failure g (Perror i no_pattern_match (if b then mismatching a1 else extraneous a1))).
    assert (F1 : fine m g1) by (split; [exact R|easy]).
    destruct (match_error_leads i vals off inp pr opt a1 a2 occ m g1 F1 eq_refl) as (g' & vd & U & F' & L).
    exists g', vd. split; [|split; [exact F'|]].
    - destruct b; [apply put_mismatch|apply put_extraneous]; try easy; [now apply B|]. intros X. apply B in X. discriminate.
    - eapply leads_step; [|exact L]. cbn [pstep mk v_match_error v_matcher]. rewrite Hl, E. cbn [ok obind]. unfold mk, g1. cbn. rewrite Hl. reflexivity.
  Qed.

  Lemma consume_leads m g y i : fine m g -> g_lost g = false -> i < length args ->
    exists m' b, consume m y i = Ok (m', b) /\
      (b = true -> viable ts (g_word g ++ [y]) /\ fine m' (symbol g y i)) /\ (b = false -> ~ viable ts (g_word g ++ [y]) /\ m' = m).
  Proof.
    intros [R F] Hl Hi. destruct (Hm _ _ R) as (C & _). destruct (C y i Hi) as (m' & b & E & B & D). exists m', b. split; [exact E|].
    split; intros ->; (split; [|]).
    - now apply B.
    - split; [cbn; eapply reached_consumed; eassumption|exact F].
    - intros X. apply B in X. discriminate.
    - auto.
  Qed.

  (* an option that may be referred to by patterns *)
  Lemma refers_leads i vals off k d a1 a2 occ m g : fine m g -> i < length args ->
    exists g' vd m', refers ts delegs a1 k i g g' vd /\ fine m' g' /\
      let v := mk i vals off (kn_pattern k) (kn_symbol k) d a1 a2 occ m g in
      match (if v_in_pattern v && negb (v_match_error v) then
          let? (m, b) := ok (consume (v_matcher v) (Psym s_proto_option (v_proto v)) (v_arg_index v)) in
          if b : bool then Some (inl (maybe_short_form_continuation, with_matcher v m))
          else Some (inl (rejected_pattern_arg, with_matcher v m))
        else Some (inl (maybe_short_form_continuation, v)) : option (plabel * pstate + poutcome * pstate)) with
      | Some (inl (l1, v1)) => leads l1 v1 vd maybe_short_form_continuation (mk i vals off (kn_pattern k) (kn_symbol k) d a1 a2 occ m' g')
      | _ => False
      end.
  Proof.
    intros F Hi. cbv zeta. cbn [mk v_in_pattern v_match_error v_matcher v_proto v_arg_index]. destruct (kn_pattern k) eqn:Ek; cbn [andb].
    - destruct (g_lost g) eqn:El; cbn [negb].
      + exists g, VGoOn, m. split; [apply rf_yes; [easy|now apply put_lost]|]. split; [easy|]. intros r H. exact H.
      + destruct (consume_leads m g (Psym s_proto_option (kn_symbol k)) i F El Hi) as (m' & b & E & B1 & B2). rewrite E. cbn [ok obind]. destruct b.
        * destruct (B1 eq_refl) as [V F']. exists (symbol g (Psym s_proto_option (kn_symbol k)) i), VGoOn, m'.
          split; [apply rf_yes; [easy|now apply put_fits]|]. split; [exact F'|]. intros r H. exact H.
        * destruct (B2 eq_refl) as [V ->]. destruct (rejected_leads i vals off true (kn_symbol k) d a1 a2 occ m g _ F El V) as (g' & vd & P & F' & L).
          exists g', vd, m. split; [now apply rf_yes|]. split; [exact F'|]. exact L.
    - exists g, VGoOn, m. split; [now apply rf_no|]. split; [easy|]. intros r H. exact H.
  Qed.

  Lemma attr_0 o : has_attr o short_circuit = Z.testbit o 0.
  Proof. now apply (has_attr_bit o 0). Qed.
  Lemma attr_1 o : has_attr o further_args_are_values = Z.testbit o 1.
  Proof. now apply (has_attr_bit o 1). Qed.

  Definition may_end (k : known) : bool :=
    match kn_decl k with Some (_, o) => Z.testbit (o_attr o) 1 && negb (Z.testbit (o_attr o) 0) | None => false end.
  Lemma may_end_ok a i k o : may_end k = true <-> ends_options (IFlag a i k o).
  Proof.
    unfold may_end. cbn [ends_options]. destruct (kn_decl k) as [[d x]|]; [|split; [discriminate|intros (d & x & H & _); discriminate]].
    split; [intros H; apply andb_prop in H as [A B]; apply negb_true_iff in B; now exists d, x|].
    intros (d' & x' & [= <- <-] & -> & ->). reflexivity.
  Qed.

  (* an option without argument *)
  Lemma without_leads p i vals off k a1 a2 occ m g : fine m g -> i < length args -> knows s p k -> (forall d, ~ needs_arg k d) ->
    exists g' vd m' vals', follows s ts delegs g (IFlag a1 i k occ) g' vd /\ fine m' g' /\
      (vd = VGoOn -> vals' = vals || may_end k) /\
      leads option_without_arg (mk i vals off (kn_pattern k) (kn_symbol k) (option_map fst (kn_decl k)) a1 a2 occ m g) vd
        maybe_short_form_continuation (mk i vals' off (kn_pattern k) (kn_symbol k) (option_map fst (kn_decl k)) a1 a2 occ m' g').
  Proof.
    intros F Hi (_ & pr & _ & _ & K) N. unfold leads at 1. cbn [pstep]. destruct (kn_decl k) as [[d o]|] eqn:Ed; cbn [option_map fst].
    - destruct K as [_ Eo]. destruct (Z.testbit (o_attr o) 0) eqn:A0.
      + exists g, (VShort d), m, vals. split; [eapply f_flag_short; eassumption|]. split; [easy|]. split; [easy|]. cbn [leads].
        apply pruns_done. cbn [pstep mk v_opt]. rewrite Eo. cbn [obind]. rewrite attr_0, A0. unfold invoke_without_arg.
        rewrite (Hact d o Eo); [reflexivity|]. destruct (ar_require (o_arg o)) eqn:R; [|easy]. elim (N d). now exists o.
      + set (vals' := vals || Z.testbit (o_attr o) 1).
        destruct (refers_leads i vals' off k (Some d) a1 a2 occ m (perform g d occ) F Hi) as (g' & vd & m' & P & F' & L).
        exists g', vd, m', vals'. split; [eapply f_flag; eassumption|]. split; [exact F'|]. split.
        { intros _. unfold may_end. rewrite Ed, A0. cbn. now rewrite andb_true_r. }
        cbv zeta in L.
        set (G := if _ && _ then _ else _) in L. destruct G as [[[l1 v1]|]|] eqn:EG; try contradiction. subst G.
        eapply leads_step; [|exact L]. cbn [pstep mk v_opt]. rewrite Eo. cbn [obind]. rewrite attr_0, A0, attr_1. cbv zeta.
        rewrite <- EG. unfold vals'. destruct (Z.testbit (o_attr o) 1), vals; reflexivity.
    - destruct (refers_leads i vals off k None a1 a2 occ m g F Hi) as (g' & vd & m' & P & F' & L).
      exists g', vd, m', vals. split; [eapply f_flag_only; eassumption|]. split; [exact F'|]. split.
      { intros _. unfold may_end. rewrite Ed. now rewrite orb_false_r. }
      cbv zeta in L. set (G := if _ && _ then _ else _) in L. destruct G as [[[l1 v1]|]|] eqn:EG; try contradiction. subst G.
      eapply leads_step; [|exact L]. cbn [pstep mk v_opt]. rewrite <- EG. reflexivity.
  Qed.

  Lemma leads_back l v l1 v1 vd l' v' : pstep dash equal s args l v = Some (inl (l1, v1)) -> leads l v vd l' v' -> leads l1 v1 vd l' v'.
  Proof.
    intros E H. assert (B : forall r, pruns l v r -> pruns l1 v1 r).
    { intros r (f & K). exists f. intros fuel Hf. specialize (K (S fuel) ltac:(lia)). cbn [prun] in K. rewrite E in K. exact K. }
    destruct vd; cbn [leads] in *; auto.
  Qed.
  Lemma leads_chain l v l1 v1 vd l' v' : leads l v VGoOn l1 v1 -> leads l1 v1 vd l' v' -> leads l v vd l' v'.
  Proof. cbn. intros A B. destruct vd; cbn [leads] in *; auto. Qed.

  Definition decl_index (k : known) : option nat := option_map fst (kn_decl k).
  Definition decl_spec (k : known) : option optspec := option_map snd (kn_decl k).

  Lemma unpack_ok p k i vals off inp pr opt a1 a2 occ m g : knows s p k ->
    unpack_option s (mk i vals off inp pr opt a1 a2 occ m g) (kn_symbol k) =
      Some (mk i vals off (kn_pattern k) (kn_symbol k) (decl_index k) a1 a2 occ m g) /\
    opt_spec s (mk i vals off (kn_pattern k) (kn_symbol k) (decl_index k) a1 a2 occ m g) = Some (decl_spec k).
  Proof.
    intros (_ & x & E & P & K). unfold unpack_option, opt_spec, decl_index, decl_spec. rewrite E. cbn [obind mk v_opt].
    assert (B : match pr_pattern x with Some _ => true | None => false end = kn_pattern k).
    { destruct (pr_pattern x), (kn_pattern k); try easy; exfalso; [enough (false = true) by discriminate|]; apply P; congruence. }
    rewrite B. destruct (kn_decl k) as [[d o]|]; cbn [option_map fst snd].
    - destruct K as [-> K]. rewrite K. cbn [obind]. split; reflexivity.
    - rewrite K. split; reflexivity.
  Qed.
  Lemma allows_ok k : allows (decl_spec k) = true <-> exists d, takes_arg k d.
  Proof.
    unfold decl_spec, takes_arg. destruct (kn_decl k) as [[d o]|]; cbn; [|split; [discriminate|intros (d & o & H & _); discriminate]].
    split; [intros H; now exists d, o|]. intros (d' & o' & [= <- <-] & H). exact H.
  Qed.
  Lemma requires_ok k : requires (decl_spec k) = true <-> exists d, needs_arg k d.
  Proof.
    unfold decl_spec, needs_arg. destruct (kn_decl k) as [[d o]|]; cbn; [|split; [discriminate|intros (d & o & H & _); discriminate]].
    split; [intros H; now exists d, o|]. intros (d' & o' & [= <- <-] & H). exact H.
  Qed.
  Lemma allows_no k : (forall d, ~ takes_arg k d) -> allows (decl_spec k) = false.
  Proof. intros H. destruct (allows (decl_spec k)) eqn:E; [|easy]. apply allows_ok in E as (d & E). now elim (H d). Qed.
  Lemma requires_no k : (forall d, ~ needs_arg k d) -> requires (decl_spec k) = false.
  Proof. intros H. destruct (requires (decl_spec k)) eqn:E; [|easy]. apply requires_ok in E as (d & E). now elim (H d). Qed.
  Lemma allows_yes k d : takes_arg k d -> allows (decl_spec k) = true /\ decl_index k = Some d.
  Proof. intros T. split; [apply allows_ok; now exists d|]. destruct T as (o & E & _). unfold decl_index. now rewrite E. Qed.
  Lemma requires_yes k d : needs_arg k d -> requires (decl_spec k) = true /\ decl_index k = Some d.
  Proof. intros T. split; [apply requires_ok; now exists d|]. destruct T as (o & E & _). unfold decl_index. now rewrite E. Qed.
  Lemma takes_not_pattern p k d : knows s p k -> takes_arg k d -> kn_pattern k = false.
  Proof.
    intros (_ & x & E & P & K) (o & D & A). destruct (kn_pattern k) eqn:B; [|easy]. rewrite D in K. destruct K as [K1 K2].
    destruct Hargs as [_ H]. rewrite (H _ _ _ _ E (proj1 P eq_refl) K1 K2) in A. discriminate.
  Qed.

  Lemma nth_mid (pre r : text) c : nth_error (pre ++ c :: r) (length pre) = Some c.
  Proof. rewrite nth_error_app2 by lia. now rewrite Nat.sub_diag. Qed.

  Lemma short_step pre c r k i vals inp pr opt a2 occ m g : knows s (find_short s c) k ->
    let v1 := mk i vals (length pre + 1) (kn_pattern k) (kn_symbol k) (decl_index k) (pre ++ c :: r) a2
                (set_name occ (length pre) (length pre + 1)) m g in
    pstep dash equal s args short_form_option (mk i vals (length pre) inp pr opt (pre ++ c :: r) a2 occ m g) =
    (if negb (allows (decl_spec k)) then
       match r with
       | [] => Some (inl (option_without_arg, v1))
       | x :: _ => if x =? dash then Some (inl (l_no_option_arg_allowed, v1)) else Some (inl (option_without_arg, v1))
       end
     else
       match r with
       | _ :: _ => Some (inl (option_with_arg, with_occ v1 (set_value (v_occ v1) (length pre + 1))))
       | [] =>
         if negb (requires (decl_spec k)) then Some (inl (option_without_arg, v1))
         else if negb (i =? length args - 1) then
           Some (inl (option_with_arg, with_occ (with_arg_index v1 (S i)) (set_has_value (v_occ v1))))
         else Some (inl (l_missing_option_arg, v1))
       end).
  Proof.
    intros K. cbv zeta. cbn [pstep]. unfold mk at 1 2 3 4 5 6. cbn [with_occ with_offset v_arg_1 v_occ v_offset set_name oc_name_end oc_name_begin].
    rewrite nth_mid. cbn [obind]. rewrite (proj1 K).
    match goal with |- context [unpack_option s ?v _] => change v with (mk i vals (length pre + 1) inp pr opt (pre ++ c :: r) a2 (set_name occ (length pre) (length pre + 1)) m g) end.
    destruct (unpack_ok _ k i vals (length pre + 1) inp pr opt (pre ++ c :: r) a2 (set_name occ (length pre) (length pre + 1)) m g K) as [U1 U2].
    rewrite U1. cbn [obind]. rewrite U2. cbn [obind]. cbn [mk v_offset v_arg_1 v_arg_index v_occ].
    assert (L : length (pre ++ c :: r) = length pre + 1 + length r) by (rewrite app_length; cbn; lia). rewrite L.
    destruct r as [|x r].
    - replace (length pre + 1 =? length pre + 1 + length (@nil nat)) with true by (symmetry; apply Nat.eqb_eq; cbn; lia).
      replace (length pre + 1 <? length pre + 1 + length (@nil nat)) with false by (symmetry; apply Nat.ltb_ge; cbn; lia).
      cbn [obind]. reflexivity.
    - replace (length pre + 1 =? length pre + 1 + length (x :: r)) with false by (symmetry; apply Nat.eqb_neq; cbn; lia).
      replace (length pre + 1 <? length pre + 1 + length (x :: r)) with true by (symmetry; apply Nat.ltb_lt; cbn; lia).
      replace (nth_error (pre ++ c :: x :: r) (length pre + 1)) with (Some x).
      2:{ rewrite nth_error_app2 by lia. replace (length pre + 1 - length pre) with 1 by lia. reflexivity. }
      cbn [obind]. destruct (x =? dash); reflexivity.
  Qed.

  Definition item_ends (x : item) : bool := match x with IFlag _ _ k _ => may_end k | _ => false end.
  Lemma item_ends_ok l : existsb item_ends l = true <-> exists x, In x l /\ ends_options x.
  Proof.
    rewrite existsb_exists. split; intros (x & A & B); exists x; (split; [exact A|]); destruct x; try discriminate; try contradiction; cbn [item_ends] in *; [eapply may_end_ok; exact B|eapply may_end_ok; exact B].
  Qed.

  Lemma with_arg_leads i i' vals off k d a1 a2 occ m g v : fine m g -> kn_pattern k = false -> decl_index k = Some d ->
    follows s ts delegs g (IOption i d occ v) (perform g d occ) VGoOn /\ fine m (perform g d occ) /\
    leads option_with_arg (mk i' vals off (kn_pattern k) (kn_symbol k) (decl_index k) a1 a2 occ m g) VGoOn
      next_arg_1 (mk i' vals off (kn_pattern k) (kn_symbol k) (decl_index k) a1 a2 occ m (perform g d occ)).
  Proof.
    intros F P D. split; [apply f_option|]. split; [exact F|]. intros r H. eapply pruns_step; [|exact H]. cbn [pstep mk v_opt v_in_pattern].
    rewrite P, D. reflexivity.
  Qed.

  Lemma follows_one g x g' vd : follows s ts delegs g x g' vd -> follows_all s ts delegs g [x] g' vd.
  Proof.
    intros H. destruct vd; [eapply fa_more; [exact H|apply fa_end]|apply fa_stop; [exact H|discriminate]|apply fa_stop; [exact H|discriminate]].
  Qed.

  (* the group has ended *)
  Definition group_leads (l0 : plabel) (v0 : pstate) (vals : bool) (i : nat) (a : text) (g : progress) (l : list item) (b : bool) : Prop :=
    exists g' vd m' ix vals' off inp pr opt a2 occ, follows_all s ts delegs g l g' vd /\ fine m' g' /\
      (vd = VGoOn -> vals' = vals || existsb item_ends l) /\ (vd = VGoOn -> ix = if b then S i else i) /\
      leads l0 v0 vd next_arg_1 (mk ix vals' off inp pr opt a a2 occ m' g').

  Lemma cont_end i vals inp pr opt a a2 occ m g : leads maybe_short_form_continuation (mk i vals (length a) inp pr opt a a2 occ m g) VGoOn
    next_arg_1 (mk i vals (length a) inp pr opt a a2 occ m g).
  Proof. intros r H. eapply pruns_step; [|exact H]. cbn [pstep mk v_offset v_arg_1]. rewrite Nat.eqb_refl. reflexivity. Qed.

  (* a group that consists of a single thing, after which the end of the argument is reached *)
  Lemma group_cont l0 v0 vals i a g x g' vd m' vals' inp pr opt a2 occ : follows s ts delegs g x g' vd -> fine m' g' ->
    (vd = VGoOn -> vals' = vals || item_ends x) ->
    leads l0 v0 vd maybe_short_form_continuation (mk i vals' (length a) inp pr opt a a2 occ m' g') ->
    group_leads l0 v0 vals i a g [x] false.
  Proof.
    intros H F V L. exists g', vd, m', i, vals', (length a), inp, pr, opt, a2, occ. split; [now apply follows_one|]. split; [exact F|].
    split; [intros E; cbn; rewrite orb_false_r; auto|]. split; [easy|]. destruct vd; cbn [leads] in *; [|exact L|exact L].
    intros r K. apply L. now apply cont_end.
  Qed.

  Lemma form_ok i vals off inp pr opt a a2 occ m g form :
    substr a 0 (oc_lead_end occ) = Some (firstn (oc_lead_end occ) a) ->
    (exists name, substr a (oc_name_begin occ) (oc_name_end occ - oc_name_begin occ) = Some name /\ form = firstn (oc_lead_end occ) a ++ name) ->
    build_opt_form (mk i vals off inp pr opt a a2 occ m g) = Some form.
  Proof. intros L (name & N & ->). unfold build_opt_form. cbn [mk v_arg_1 v_occ]. rewrite L, N. reflexivity. Qed.
  Lemma context_ok i vals off inp pr opt a a2 occ m g : oc_has_value occ = false ->
    build_opt_context (mk i vals off inp pr opt a a2 occ m g) = (a, None).
  Proof. intros H. unfold build_opt_context. cbn [mk v_arg_1 v_occ]. rewrite H. reflexivity. Qed.

  Lemma unknown_leads i vals off0 inp pr opt a a2 occ m g form compound : fine m g ->
    substr a 0 (oc_lead_end occ) = Some (firstn (oc_lead_end occ) a) ->
    oc_has_value occ = false ->
    (exists name, substr a (oc_name_begin occ) (oc_name_end occ - oc_name_begin occ) = Some name /\ form = firstn (oc_lead_end occ) a ++ name) ->
    compound = negb (oc_name_begin occ =? oc_lead_end occ) ->
    group_leads l_unknown_option (mk i vals off0 inp pr opt a a2 occ m g) vals i a g [IUnknown a i form compound] false.
  Proof.
    intros F L HV N C. set (g1 := failure g (Perror i bad_option (if compound then unknown_in_compound form (a, None) else unknown_option form))).
    assert (F1 : fine m g1) by (split; [apply F|easy]).
    destruct (match_error_leads i vals (length a) inp pr opt a a2 occ m g1 F1 eq_refl) as (g' & vd & U & F' & LD).
    eapply (group_cont _ _ _ _ _ _ _ g' vd m vals); [apply f_unknown; exact U|exact F'|intros _; cbn; now rewrite orb_false_r|].
    eapply leads_step; [|exact LD]. cbn [pstep].
    change (with_offset (mk i vals off0 inp pr opt a a2 occ m g) (length (v_arg_1 (mk i vals off0 inp pr opt a a2 occ m g)))) with (mk i vals (length a) inp pr opt a a2 occ m g).
    rewrite (form_ok _ _ _ _ _ _ _ _ _ _ _ form L N), context_ok by exact HV. cbn [obind mk v_occ v_offset v_arg_1]. unfold g1. rewrite C.
    destruct (oc_name_begin occ =? oc_lead_end occ); cbn [negb]; [rewrite Nat.eqb_refl|]; reflexivity.
  Qed.

  Lemma missing_leads i vals inp pr opt a a2 occ m g form compound : fine m g ->
    substr a 0 (oc_lead_end occ) = Some (firstn (oc_lead_end occ) a) ->
    oc_has_value occ = false ->
    (exists name, substr a (oc_name_begin occ) (oc_name_end occ - oc_name_begin occ) = Some name /\ form = firstn (oc_lead_end occ) a ++ name) ->
    compound = negb (oc_name_begin occ =? oc_lead_end occ) ->
    group_leads l_missing_option_arg (mk i vals (length a) inp pr opt a a2 occ m g) vals i a g [IMissing a i form compound] false.
  Proof.
    intros F L HV N C. set (g1 := failure g (Perror i bad_option (if compound then missing_arg_in form (a, None) else missing_arg form))).
    exists g1, VGoOn, m, i, vals, (length a), inp, pr, opt, a2, occ. split; [apply follows_one; apply f_missing|]. split; [split; [apply F|easy]|].
    split; [intros _; cbn; now rewrite orb_false_r|]. split; [easy|]. intros r H. eapply pruns_step; [|exact H].
    cbn [pstep]. rewrite (form_ok _ _ _ _ _ _ _ _ _ _ _ form L N), context_ok by exact HV. cbn [obind mk v_occ v_offset v_arg_1].
    rewrite Nat.eqb_refl, andb_true_r. unfold g1. rewrite C.
    destruct (oc_name_begin occ =? oc_lead_end occ); reflexivity.
  Qed.

  Lemma refused_leads i vals off inp pr opt a a2 occ m g form value : fine m g ->
    substr a 0 (oc_lead_end occ) = Some (firstn (oc_lead_end occ) a) ->
    oc_has_value occ = false ->
    (exists name, substr a (oc_name_begin occ) (oc_name_end occ - oc_name_begin occ) = Some name /\ form = firstn (oc_lead_end occ) a ++ name) ->
    substr a off (length a) = Some value ->
    group_leads l_no_option_arg_allowed (mk i vals off inp pr opt a a2 occ m g) vals i a g [IRefused a i value form] false.
  Proof.
    intros F L HV N V. set (g1 := failure g (Perror i bad_option (no_arg_allowed value form (a, None)))).
    exists g1, VGoOn, m, i, vals, off, inp, pr, opt, a2, occ. split; [apply follows_one; apply f_refused|]. split; [split; [apply F|easy]|].
    split; [intros _; cbn; now rewrite orb_false_r|]. split; [easy|]. intros r H. eapply pruns_step; [|exact H].
    cbn [pstep]. rewrite (form_ok _ _ _ _ _ _ _ _ _ _ _ form L N), context_ok by exact HV. cbn [mk v_arg_1 v_offset]. rewrite V. reflexivity.
  Qed.

  Lemma group_step l v l1 v1 vals i a g l0 b : pstep dash equal s args l v = Some (inl (l1, v1)) -> group_leads l1 v1 vals i a g l0 b -> group_leads l v vals i a g l0 b.
  Proof.
    intros E (g' & vd & m' & ix & vals' & off & inp & pr & opt & a2 & occ & A & B & C & C' & D). exists g', vd, m', ix, vals', off, inp, pr, opt, a2, occ.
    split; [exact A|]. split; [exact B|]. split; [exact C|]. split; [exact C'|]. eapply leads_step; eassumption.
  Qed.
  Lemma group_back l v l1 v1 vals i a g l0 b : pstep dash equal s args l v = Some (inl (l1, v1)) -> group_leads l v vals i a g l0 b -> group_leads l1 v1 vals i a g l0 b.
  Proof.
    intros E (g' & vd & m' & ix & vals' & off & inp & pr & opt & a2 & occ & A & B & C & C' & D). exists g', vd, m', ix, vals', off, inp, pr, opt, a2, occ.
    split; [exact A|]. split; [exact B|]. split; [exact C|]. split; [exact C'|]. eapply leads_back; eassumption.
  Qed.

  Lemma group_more l0 v0 vals vals1 i i1 a g x l b g1 vd lmid inp pr opt a2 occ m1 off : follows s ts delegs g x g1 vd -> fine m1 g1 ->
    (vd = VGoOn -> vals1 = vals || item_ends x) ->
    leads l0 v0 vd lmid (mk i1 vals1 off inp pr opt a a2 occ m1 g1) ->
    (vd = VGoOn -> group_leads lmid (mk i1 vals1 off inp pr opt a a2 occ m1 g1) vals1 i a g1 l b) ->
    group_leads l0 v0 vals i a g (x :: l) b.
  Proof.
    intros H F V L G. destruct vd as [| |d].
    - destruct (G eq_refl) as (g' & vd & m' & ix & vals' & off' & inp' & pr' & opt' & a2' & occ' & A & B & C & C' & D).
      exists g', vd, m', ix, vals', off', inp', pr', opt', a2', occ'. split; [eapply fa_more; eassumption|]. split; [exact B|].
      split; [intros E; rewrite (C E), (V eq_refl); cbn; now rewrite orb_assoc|]. split; [exact C'|]. eapply leads_chain; eassumption.
    - exists g1, VStop, m1, i1, vals1, off, inp, pr, opt, a2, occ. split; [now apply fa_stop|]. split; [exact F|]. now repeat split.
    - exists g1, (VShort d), m1, i1, vals1, off, inp, pr, opt, a2, occ. split; [now apply fa_stop|]. split; [exact F|]. now repeat split.
  Qed.

  Lemma firstn_lead1 (pre r : text) : substr (dash :: pre ++ r) 0 1 = Some (firstn 1 (dash :: pre ++ r)).
  Proof. reflexivity. Qed.
  Lemma substr_name pre c r : substr (pre ++ c :: r) (length pre) (length pre + 1 - length pre) = Some [c].
  Proof.
    unfold substr. rewrite app_length. replace (length pre <=? _) with true by (symmetry; apply Nat.leb_le; lia).
    rewrite skipn_app, skipn_all, Nat.sub_diag. replace (length pre + 1 - length pre) with 1 by lia. reflexivity.
  Qed.
  Lemma substr_tail pre c r n : length r <= n -> substr (pre ++ c :: r) (length pre + 1) n = Some r.
  Proof.
    intros H. unfold substr. rewrite app_length. cbn [length]. replace (length pre + 1 <=? _) with true by (symmetry; apply Nat.leb_le; lia).
    rewrite skipn_app. rewrite skipn_all2 by lia. replace (length pre + 1 - length pre) with 1 by lia. cbn. now rewrite firstn_all2.
  Qed.

  Lemma short_leads a i next pre r l b : reads_short dash s a i next pre r l b ->
    (exists pre', pre = dash :: pre') -> a = pre ++ r -> i < length args -> nth_error args (S i) = next ->
    forall vals inp pr opt a2 m g x y, fine m g ->
      group_leads maybe_short_form_continuation (mk i vals (length pre) inp pr opt a a2 (Occurrence i false 1 x y 0) m g) vals i a g l b.
  Proof.
    assert (Start : forall pre c r i vals inp pr opt a2 m g x y l b,
      group_leads short_form_option (mk i vals (length pre) inp pr opt (pre ++ c :: r) a2 (Occurrence i false 1 x y 0) m g) vals i (pre ++ c :: r) g l b ->
      group_leads maybe_short_form_continuation (mk i vals (length pre) inp pr opt (pre ++ c :: r) a2 (Occurrence i false 1 x y 0) m g) vals i (pre ++ c :: r) g l b).
    { intros. eapply group_step; [|eassumption]. cbn [pstep mk v_offset v_arg_1]. rewrite app_length. cbn [length].
      replace (length pre0 =? _) with false by (symmetry; apply Nat.eqb_neq; lia). reflexivity. }
    assert (Last : nth_error args (S i) = next -> i < length args -> (i =? length args - 1) = match next with Some _ => false | None => true end).
    { intros <- Hi. destruct (nth_error args (S i)) eqn:E; [apply Nat.eqb_neq|apply Nat.eqb_eq].
      - assert (S i < length args) by (apply nth_error_Some; congruence). lia.
      - apply nth_error_None in E. lia. }
    induction 1 as [pre|pre c r k l b K T D R IH|pre c k d K T N|pre c z r k d K T|pre c k d v K N Nx|pre c k d K N Nx|pre c r k K T|pre c r K];
      intros (pre' & Hp) Ea Hi Hn vals inp pr opt a2 m g x y F.
    - rewrite app_nil_r in Ea. subst a. exists g, VGoOn, m, i, vals, (length pre), inp, pr, opt, a2, (Occurrence i false 1 x y 0).
      split; [apply fa_end|]. split; [exact F|]. split; [intros _; cbn; now rewrite orb_false_r|]. split; [easy|]. apply cont_end.
    - rewrite Ea. apply Start. assert (N : forall d, ~ needs_arg k d) by (intros d X; apply (T d); eapply needs_takes; eassumption).
      destruct (without_leads (find_short s c) i vals (length pre + 1) k (pre ++ c :: r) a2 (Occurrence i false 1 (length pre) (length pre + 1) 0) m g F Hi K N)
        as (g1 & vd & m1 & vals1 & A & F1 & V1 & L1).
      rewrite <- Ea. eapply (group_more _ _ _ vals1); [rewrite Ea; exact A|exact F1|exact V1| |].
      + rewrite Ea. eapply leads_step; [|exact L1]. rewrite (short_step pre c r k); [|exact K]. rewrite (allows_no k T). cbn [negb].
        destruct r as [|z r]; [reflexivity|]. destruct (z =? dash) eqn:Ez; [|reflexivity]. apply Nat.eqb_eq in Ez. subst z. now elim (D r).
      + intros _. replace (length pre + 1) with (length (pre ++ [c])) by (rewrite app_length; reflexivity). apply IH; [|rewrite <- app_assoc; exact Ea|exact Hi|exact Hn|exact F1].
        exists (pre' ++ [c]). now rewrite Hp.
    - rewrite Ea. apply Start. assert (N' : forall d, ~ needs_arg k d).
      { intros d' X. assert (d' = d) by (eapply takes_unique; [eapply needs_takes; eassumption|exact T]). subst. tauto. }
      destruct (without_leads (find_short s c) i vals (length pre + 1) k (pre ++ [c]) a2 (Occurrence i false 1 (length pre) (length pre + 1) 0) m g F Hi K N')
        as (g1 & vd & m1 & vals1 & A & F1 & V1 & L1).
      eapply group_cont; [exact A|exact F1|exact V1|]. rewrite app_length. cbn [length].
      eapply leads_step; [|exact L1]. rewrite (short_step pre c [] k); [|exact K]. rewrite (proj1 (allows_yes k d T)), (requires_no k N'). reflexivity.
    - rewrite Ea. apply Start. destruct (allows_yes k d T) as [A1 A2].
      destruct (with_arg_leads i i vals (length pre + 1) k d (pre ++ c :: z :: r) a2 (Occurrence i true 1 (length pre) (length pre + 1) (length pre + 1)) m g (z :: r) F
        (takes_not_pattern _ k d K T) A2) as (A & F1 & L1).
      eexists _, VGoOn, m, i, vals, _, _, _, _, _, _. split; [apply follows_one; exact A|]. split; [exact F1|]. split; [intros _; cbn; now rewrite orb_false_r|].
      split; [easy|]. eapply leads_step; [|exact L1]. rewrite (short_step pre c (z :: r) k); [|exact K]. rewrite A1. reflexivity.
    - rewrite Ea. apply Start. destruct (allows_yes k d (needs_takes s Hargs _ k d K N)) as [A1 A2]. destruct (requires_yes k d N) as [B1 _].
      destruct (with_arg_leads i (S i) vals (length pre + 1) k d (pre ++ [c]) a2 (Occurrence i true 1 (length pre) (length pre + 1) 0) m g v F
        (takes_not_pattern _ k d K (needs_takes s Hargs _ k d K N)) A2) as (A & F1 & L1).
      eexists _, VGoOn, m, (S i), vals, _, _, _, _, _, _. split; [apply follows_one; exact A|]. split; [exact F1|]. split; [intros _; cbn; now rewrite orb_false_r|].
      split; [easy|]. eapply leads_step; [|exact L1]. rewrite (short_step pre c [] k); [|exact K]. rewrite A1, B1, (Last Hn Hi), Nx. reflexivity.
    - rewrite Ea. apply Start. destruct (allows_yes k d (needs_takes s Hargs _ k d K N)) as [A1 A2]. destruct (requires_yes k d N) as [B1 _].
      eapply group_step.
      { rewrite (short_step pre c [] k); [|exact K]. rewrite A1, B1, (Last Hn Hi), Nx. reflexivity. }
      replace (length pre + 1) with (length (pre ++ [c])) at 1 by (rewrite app_length; reflexivity). cbn [set_name].
      apply missing_leads; [exact F|reflexivity|reflexivity| |].
      + exists [c]. cbn [set_name oc_name_begin oc_name_end oc_lead_end]. split; [apply substr_name|]. now rewrite Hp.
      + cbn [set_name oc_name_begin oc_lead_end]. rewrite Hp. cbn [length]. destruct pre'; reflexivity.
    - rewrite Ea. apply Start. eapply group_step.
      { rewrite (short_step pre c (dash :: r) k); [|exact K]. rewrite (allows_no k T), Nat.eqb_refl. reflexivity. }
      apply refused_leads; [exact F|reflexivity|reflexivity| |].
      + exists [c]. cbn [set_name oc_name_begin oc_name_end oc_lead_end]. split; [apply substr_name|]. now rewrite Hp.
      + apply substr_tail. rewrite app_length. cbn. lia.
    - rewrite Ea. apply Start. eapply group_step.
      { cbn [pstep]. unfold mk at 1 2 3 4 5 6. cbn [with_occ with_offset v_arg_1 v_occ v_offset set_name oc_name_end oc_name_begin].
        rewrite nth_mid. cbn [obind]. rewrite K. reflexivity. }
      match goal with |- group_leads _ ?vv _ _ _ _ _ _ => change vv with (mk i vals (length pre + 1) inp pr opt (pre ++ c :: r) a2 (Occurrence i false 1 (length pre) (length pre + 1) 0) m g) end.
      apply unknown_leads; [exact F|reflexivity|reflexivity| |].
      + exists [c]. cbn [oc_name_begin oc_name_end oc_lead_end]. split; [apply substr_name|]. now rewrite Hp.
      + cbn [oc_name_begin oc_lead_end]. rewrite Hp. cbn [length]. destruct pre'; reflexivity.
  Qed.

  Lemma find_from_ok name v i : ~ In equal name -> find_from (long_text equal name v) equal i = i + length name.
  Proof.
    revert i. unfold long_text. induction name as [|c name IH]; intros i N; cbn.
    - destruct v; cbn; [rewrite Nat.eqb_refl|]; lia.
    - destruct (c =? equal) eqn:E; [apply Nat.eqb_eq in E; subst; now elim N; left|]. rewrite IH by (intros X; apply N; now right). lia.
  Qed.
  Lemma long_name name v : substr (dash :: dash :: long_text equal name v) 2 (2 + length name - 2) = Some name.
  Proof.
    unfold substr, long_text. cbn [length Nat.leb skipn]. replace (2 + length name - 2) with (length name) by lia.
    rewrite firstn_app, firstn_all, Nat.sub_diag. cbn. now rewrite app_nil_r.
  Qed.

  Lemma long_step name v k i vals inp pr opt a2 occ m g : ~ In equal name -> knows s (find_long s name) k ->
    let a := dash :: dash :: long_text equal name v in
    let v1 := fun off => mk i vals off (kn_pattern k) (kn_symbol k) (decl_index k) a a2 (set_name occ 2 (2 + length name)) m g in
    pstep dash equal s args long_form_option (mk i vals 2 inp pr opt a a2 occ m g) =
    match v with
    | Some _ =>
      if allows (decl_spec k) then Some (inl (option_with_arg, with_occ (v1 (3 + length name)) (set_value (v_occ (v1 0)) (3 + length name))))
      else Some (inl (l_no_option_arg_allowed, v1 (3 + length name)))
    | None =>
      if negb (requires (decl_spec k)) then Some (inl (option_without_arg, v1 (2 + length name)))
      else if negb (i =? length args - 1) then
        Some (inl (option_with_arg, with_occ (with_arg_index (v1 (2 + length name)) (S i)) (set_has_value (v_occ (v1 0)))))
      else Some (inl (l_missing_option_arg, v1 (2 + length name)))
    end.
  Proof.
    intros N K. cbv zeta. cbn [pstep].
    change (find_from (skipn (v_offset (mk i vals 2 inp pr opt (dash :: dash :: long_text equal name v) a2 occ m g))
      (v_arg_1 (mk i vals 2 inp pr opt (dash :: dash :: long_text equal name v) a2 occ m g))) equal
      (v_offset (mk i vals 2 inp pr opt (dash :: dash :: long_text equal name v) a2 occ m g))) with (find_from (long_text equal name v) equal 2).
    rewrite find_from_ok by exact N.
    match goal with |- context [with_offset (with_occ ?vv ?oo) ?xx] =>
      change (with_offset (with_occ vv oo) xx) with (mk i vals (2 + length name) inp pr opt (dash :: dash :: long_text equal name v) a2 (set_name occ 2 (2 + length name)) m g) end.
    cbn [mk v_arg_1 v_occ set_name oc_name_begin oc_name_end]. rewrite long_name. cbn [obind]. rewrite (proj1 K).
    destruct (unpack_ok _ k i vals (2 + length name) inp pr opt (dash :: dash :: long_text equal name v) a2 (set_name occ 2 (2 + length name)) m g K) as [U1 U2].
    match goal with |- context [unpack_option s ?vv _] => change vv with (mk i vals (2 + length name) inp pr opt (dash :: dash :: long_text equal name v) a2 (set_name occ 2 (2 + length name)) m g) end.
    rewrite U1. cbn [obind]. rewrite U2. cbn [obind]. cbn [mk v_offset v_arg_1 v_arg_index v_occ].
    assert (L : length (dash :: dash :: long_text equal name v) = 2 + length name + match v with Some v => 1 + length v | None => 0 end).
    { unfold long_text. cbn [length]. rewrite app_length. destruct v; cbn; lia. }
    rewrite L. destruct v as [v|].
    - replace (2 + length name <? _) with true by (symmetry; apply Nat.ltb_lt; lia).
      replace (nth_error (dash :: dash :: long_text equal name (Some v)) (2 + length name)) with (Some equal).
      2:{ cbn [Nat.add nth_error]. unfold long_text. symmetry. rewrite nth_error_app2 by lia. now rewrite Nat.sub_diag. }
      cbn [obind]. rewrite Nat.eqb_refl. reflexivity.
    - replace (2 + length name <? _) with false by (symmetry; apply Nat.ltb_ge; lia). reflexivity.
  Qed.

  Lemma last_arg i next : nth_error args (S i) = next -> i < length args -> (i =? length args - 1) = match next with Some _ => false | None => true end.
  Proof.
    intros <- Hi. destruct (nth_error args (S i)) eqn:E; [apply Nat.eqb_neq|apply Nat.eqb_eq].
    - assert (S i < length args) by (apply nth_error_Some; congruence). lia.
    - apply nth_error_None in E. lia.
  Qed.

  Lemma long_leads i next name v l b : ~ In equal name -> i < length args -> nth_error args (S i) = next ->
    let a := dash :: dash :: long_text equal name v in
    reads_long dash s a i next name v l b ->
    forall vals inp pr opt a2 m g x y, fine m g ->
      group_leads long_form_option (mk i vals 2 inp pr opt a a2 (Occurrence i false 2 x y 0) m g) vals i a g l b.
  Proof.
    intros N Hi Hn a R vals inp pr opt a2 m g x y F. unfold a in *. clear a.
    inversion R as [name' k K T|name' v' k d K T|name' k d v' K T Nx|name' k d K T Nx|name' v' k K T|name' v' K]; subst name' v l b.
    - destruct (without_leads (find_long s name) i vals (2 + length name) k (dash :: dash :: long_text equal name None) a2 (Occurrence i false 2 2 (2 + length name) 0) m g F Hi K T)
        as (g1 & vd & m1 & vals1 & A & F1 & V1 & L1).
      eapply group_cont; [exact A|exact F1|exact V1|].
      replace (length (dash :: dash :: long_text equal name None)) with (2 + length name) by (unfold long_text; rewrite app_nil_r; reflexivity).
      eapply leads_step; [|exact L1]. rewrite (long_step name None k) by assumption. rewrite (requires_no k T). reflexivity.
    - destruct (allows_yes k d T) as [A1 A2].
      destruct (with_arg_leads i i vals (3 + length name) k d (dash :: dash :: long_text equal name (Some v')) a2 (Occurrence i true 2 2 (2 + length name) (3 + length name)) m g v' F
        (takes_not_pattern _ k d K T) A2) as (A & F1 & L1).
      eexists _, VGoOn, m, i, vals, _, _, _, _, _, _. split; [apply follows_one; exact A|]. split; [exact F1|]. split; [intros _; cbn; now rewrite orb_false_r|].
      split; [easy|]. eapply leads_step; [|exact L1]. rewrite (long_step name (Some v') k) by assumption. rewrite A1. reflexivity.
    - destruct (requires_yes k d T) as [B1 A2].
      destruct (with_arg_leads i (S i) vals (2 + length name) k d (dash :: dash :: long_text equal name None) a2 (Occurrence i true 2 2 (2 + length name) 0) m g v' F
        (takes_not_pattern _ k d K (needs_takes s Hargs _ k d K T)) A2) as (A & F1 & L1).
      eexists _, VGoOn, m, (S i), vals, _, _, _, _, _, _. split; [apply follows_one; exact A|]. split; [exact F1|]. split; [intros _; cbn; now rewrite orb_false_r|].
      split; [easy|]. eapply leads_step; [|exact L1]. rewrite (long_step name None k) by assumption. rewrite B1, (last_arg i next Hn Hi), Nx. reflexivity.
    - destruct (requires_yes k d T) as [B1 A2]. assert (Q : (i =? length args - 1) = true) by (rewrite (last_arg i next Hn Hi), Nx; reflexivity).
      eapply group_step.
      { rewrite (long_step name None k) by assumption. rewrite B1, Q. reflexivity. }
      replace (2 + length name) with (length (dash :: dash :: long_text equal name None)) at 1 by (unfold long_text; rewrite app_nil_r; reflexivity).
      apply missing_leads; [exact F|reflexivity|reflexivity| |reflexivity].
      exists name. cbn [set_name oc_name_begin oc_name_end oc_lead_end]. split; [apply long_name|reflexivity].
    - eapply group_step.
      { rewrite (long_step name (Some v') k) by assumption. rewrite (allows_no k T). reflexivity. }
      apply refused_leads; [exact F|reflexivity|reflexivity| |].
      + exists name. cbn [set_name oc_name_begin oc_name_end oc_lead_end]. split; [apply long_name|reflexivity].
      + unfold long_text. change (dash :: dash :: name ++ equal :: v') with ((dash :: dash :: name) ++ equal :: v').
        replace (3 + length name) with (length (dash :: dash :: name) + 1) by (cbn [length]; lia). apply substr_tail. rewrite app_length. cbn. lia.
    - eapply group_step.
      { cbn [pstep].
        change (find_from (skipn (v_offset (mk i vals 2 inp pr opt (dash :: dash :: long_text equal name v') a2 (Occurrence i false 2 x y 0) m g))
          (v_arg_1 (mk i vals 2 inp pr opt (dash :: dash :: long_text equal name v') a2 (Occurrence i false 2 x y 0) m g))) equal
          (v_offset (mk i vals 2 inp pr opt (dash :: dash :: long_text equal name v') a2 (Occurrence i false 2 x y 0) m g))) with (find_from (long_text equal name v') equal 2).
        rewrite find_from_ok by exact N.
        match goal with |- context [with_offset (with_occ ?vv ?oo) ?xx] =>
          change (with_offset (with_occ vv oo) xx) with (mk i vals (2 + length name) inp pr opt (dash :: dash :: long_text equal name v') a2 (Occurrence i false 2 2 (2 + length name) 0) m g) end.
        cbn [mk v_arg_1 v_occ set_name oc_name_begin oc_name_end]. rewrite long_name. cbn [obind]. rewrite K. reflexivity. }
      match goal with |- group_leads _ ?vv _ _ _ _ _ _ => change vv with (mk i vals (2 + length name) inp pr opt (dash :: dash :: long_text equal name v') a2 (Occurrence i false 2 2 (2 + length name) 0) m g) end.
      apply unknown_leads; [exact F|reflexivity|reflexivity| |reflexivity].
      exists name. cbn [oc_name_begin oc_name_end oc_lead_end]. split; [apply long_name|reflexivity].
  Qed.

  (* the part of the model from the label next_arg_2 on where an argument is looked at *)
  Definition parse_arg (v : pstate) : option (plabel * pstate + poutcome * pstate) :=
    let? a := nth_error args (v_arg_index v) in
    let v := with_arg_1 v a in
    let? is_opt :=
      (if negb (v_values v) && (2 <=? length a) then let? c := nth_error a 0 in Some (c =? dash) else Some false) in
    if is_opt then
      let? c := nth_error a 1 in
      if c =? dash then
        Some (inl (long_form_option, with_offset (with_occ v (Occurrence (v_arg_index v) false 2 0 0 0)) 2))
      else
        Some (inl (short_form_option, with_offset (with_occ v (Occurrence (v_arg_index v) false 1 0 0 0)) 1))
    else if negb (v_match_error v) then
      let? (v, consumed) :=
        (if negb (v_values v) then
           match find_keyword s a with
           | Some keyword_index =>
             let? (m, b) := ok (consume (v_matcher v) (Psym s_keyword keyword_index) (v_arg_index v)) in
             Some (with_matcher v m, b)
           | None => Some (v, false)
           end
         else Some (v, false)) in
      if consumed : bool then Some (inl (next_arg_1, v))
      else
        let? (m, b) := ok (consume (v_matcher v) (Psym s_value_slot 0) (v_arg_index v)) in
        if b : bool then Some (inl (next_arg_1, with_matcher v m))
        else Some (inl (rejected_pattern_arg, with_offset (with_matcher v m) (length a)))
    else Some (inl (next_arg_1, v)).

  Lemma deleg_at p w : first_match ts p w -> exists b, nth_error delegs p = Some b.
  Proof.
    intros [(t & mw & E & _) _]. destruct (nth_error delegs p) as [b|] eqn:D; [now exists b|]. apply nth_error_None in D.
    assert (p < length ts) by (apply nth_error_Some; congruence). lia.
  Qed.

  Lemma next_arg_2_parse i vals off inp pr opt a1 a2 occ m g : fine m g -> i < length args -> (forall p, ~ delegates ts delegs g p) ->
    pstep dash equal s args next_arg_2 (mk i vals off inp pr opt a1 a2 occ m g) = parse_arg (mk i vals off inp pr opt a1 a2 occ m g).
  Proof.
    intros [R F] Hi ND. destruct (Hm _ _ R) as (_ & (o & E & O) & _). cbn [pstep]. fold (parse_arg (mk i vals off inp pr opt a1 a2 occ m g)).
    cbn [mk v_match_error v_matcher v_arg_index v_has_error]. replace (i =? length args) with false by (symmetry; apply Nat.eqb_neq; lia).
    destruct (g_lost g) eqn:El; cbn [negb].
    - rewrite F by easy. reflexivity.
    - rewrite E. cbn [ok obind]. destruct o as [p|]; [|reflexivity]. rewrite (Hdel _ _ R). pose proof (proj1 (O p) eq_refl) as M.
      destruct (deleg_at p _ M) as (b & D). rewrite D. cbn [obind]. destruct b; [|reflexivity]. exfalso. apply (ND p). split; [exact El|]. split; [exact M|exact D].
  Qed.

  Lemma arg_leads i next a l b vals : reads_arg dash equal s vals i next a l b -> nth_error args i = Some a -> nth_error args (S i) = next ->
    forall off inp pr opt a1 a2 occ m g, fine m g -> (forall p, ~ delegates ts delegs g p) ->
      group_leads next_arg_2 (mk i vals off inp pr opt a1 a2 occ m g) vals i a g l b.
  Proof.
    intros Ra Ea En off inp pr opt a1 a2 occ m g F ND. assert (Hi : i < length args) by (apply nth_error_Some; congruence).
    pose proof (next_arg_2_parse i vals off inp pr opt a1 a2 occ m g F Hi ND) as E.
    unfold parse_arg in E. cbn [mk v_arg_index] in E. rewrite Ea in E. cbn [obind] in E.
    change (with_arg_1 (mk i vals off inp pr opt a1 a2 occ m g) a) with (mk i vals off inp pr opt a a2 occ m g) in E.
    cbn [mk v_values v_match_error v_matcher v_arg_index] in E.
    inversion Ra as [a' H|c r l' b' Hv Hc Rs|name v l' b' Hv N Rl]; subst.
    - match type of E with context [if negb vals && ?x then ?y else ?z] => assert (O : (if negb vals && x then y else z) = Some false) end.
      { destruct vals; [reflexivity|]. cbn [negb andb]. destruct a as [|z [|z2 r]]; [reflexivity|reflexivity|]. cbn [length Nat.leb nth_error obind].
        destruct (z =? dash) eqn:Ez; [|reflexivity]. apply Nat.eqb_eq in Ez. subst z. exfalso. destruct H as [H|[H|H]]; [discriminate|cbn in H; lia|]. now elim (H (z2 :: r)). }
      rewrite O in E. cbn [obind] in E. clear O. destruct (g_lost g) eqn:El.
      + cbn [v_match_error negb] in E.
        assert (exists y, plain_symbol s ts a vals (g_word g) y) as (y & P).
        { destruct F as [R F]. destruct (Hm _ _ R) as (C & _). destruct vals; [exists (Psym s_value_slot 0); right; split; [easy|now left]|].
          destruct (find_keyword s a) as [k|] eqn:Ek.
          - destruct (C (Psym s_keyword k) i Hi) as (m' & b & _ & B & _). destruct b; [exists (Psym s_keyword k); left; split; [easy|]; exists k; split; [exact Ek|]; split; [easy|now apply B]|].
            exists (Psym s_value_slot 0). right. split; [easy|]. right. intros k' Ek'. assert (k' = k) by congruence. subst. intros X. apply B in X. discriminate.
          - exists (Psym s_value_slot 0). right. split; [easy|]. right. intros k' Ek'. congruence. }
        exists g, VGoOn, m, i, vals, off, inp, pr, opt, a2, occ. split; [apply follows_one; eapply f_plain; [exact P|now apply put_lost]|]. split; [exact F|].
        split; [intros _; cbn; now rewrite orb_false_r|]. split; [easy|]. intros r K. eapply pruns_step; [exact E|]. exact K.
      + cbn [v_match_error negb v_values v_matcher v_arg_index] in E.
        assert (KW : (exists k m', vals = false /\ find_keyword s a = Some k /\ consume m (Psym s_keyword k) i = Ok (m', true) /\ viable ts (g_word g ++ [Psym s_keyword k]) /\ fine m' (symbol g (Psym s_keyword k) i)) \/
          (vals = true \/ find_keyword s a = None \/ exists k, find_keyword s a = Some k /\ consume m (Psym s_keyword k) i = Ok (m, false) /\ ~ viable ts (g_word g ++ [Psym s_keyword k]))).
        { destruct vals; [tauto|]. destruct (find_keyword s a) as [k|] eqn:Ek; [|tauto].
          destruct (consume_leads m g (Psym s_keyword k) i F El Hi) as (m' & b & C & B1 & B2). destruct b.
          - left. exists k, m'. destruct (B1 eq_refl). auto.
          - right. right. right. exists k. destruct (B2 eq_refl) as [B ->]. auto. }
        destruct KW as [(k & m' & -> & Ek & C & V & F')|KW].
        * rewrite Ek in E. cbn [negb] in E. rewrite C in E. cbn [ok obind] in E.
          exists (symbol g (Psym s_keyword k) i), VGoOn, m', i, false, off, inp, pr, opt, a2, occ.
          split; [apply follows_one; eapply f_plain; [left; split; [easy|]; exists k; eauto|now apply put_fits]|]. split; [exact F'|]. split; [easy|]. split; [easy|].
          intros r K. eapply pruns_step; [exact E|]. exact K.
        * assert (PS : plain_symbol s ts a vals (g_word g) (Psym s_value_slot 0)).
          { right. split; [easy|]. destruct KW as [KW|[KW|(k & KW & _ & V)]]; [now left|right; intros; congruence|right]. intros k' K'. assert (k' = k) by congruence. now subst. }
          destruct (consume_leads m g (Psym s_value_slot 0) i F El Hi) as (m' & b & C & B1 & B2).
          assert (E' : pstep dash equal s args next_arg_2 (mk i vals off inp pr opt a1 a2 occ m g) =
            Some (inl (if b then (next_arg_1, mk i vals off inp pr opt a a2 occ m' g) else (rejected_pattern_arg, mk i vals (length a) inp pr opt a a2 occ m' g)))).
          { rewrite E.
            match goal with |- obind ?x _ = _ => assert (Q : x = Some (mk i vals off inp pr opt a a2 occ m g, false)) end.
            { destruct vals; [reflexivity|]. cbn [negb]. destruct KW as [KW|[KW|(k & KW & C' & V)]]; [discriminate|rewrite KW; reflexivity|].
              rewrite KW, C'. reflexivity. }
            rewrite Q. cbn [obind mk v_matcher v_arg_index]. rewrite C. cbn [ok obind]. destruct b; reflexivity. }
          destruct b.
          -- destruct (B1 eq_refl) as [V F']. exists (symbol g (Psym s_value_slot 0) i), VGoOn, m', i, vals, off, inp, pr, opt, a2, occ.
             split; [apply follows_one; eapply f_plain; [exact PS|now apply put_fits]|]. split; [exact F'|]. split; [intros _; cbn; now rewrite orb_false_r|]. split; [easy|].
             intros r K. eapply pruns_step; [exact E'|]. exact K.
          -- destruct (B2 eq_refl) as [V ->]. destruct (rejected_leads i vals (length a) inp pr opt a a2 occ m g _ F El V) as (g' & vd & P & F' & L).
             eapply group_cont; [eapply f_plain; [exact PS|exact P]|exact F'|intros _; cbn; now rewrite orb_false_r|]. eapply leads_step; [exact E'|exact L].
    - cbn [negb andb length Nat.leb nth_error obind] in E. rewrite Nat.eqb_refl in E. cbn [obind] in E.
      replace (c =? dash) with false in E by (symmetry; now apply Nat.eqb_neq).
      eapply group_step; [exact E|].
      eapply group_back; [|eapply (short_leads _ i (nth_error args (S i)) [dash] (c :: r) l b Rs); [now exists []|reflexivity|exact Hi|reflexivity|exact F]].
      cbn [pstep mk v_offset v_arg_1 length app]. reflexivity.
    - cbn [negb andb length Nat.leb nth_error obind] in E. rewrite Nat.eqb_refl in E. cbn [obind] in E.
      eapply group_step; [exact E|]. eapply long_leads; [exact N|exact Hi|reflexivity|exact Rl|exact F].
  Qed.

  Lemma delegates_dec g m : fine m g -> (exists p, delegates ts delegs g p) \/ (forall p, ~ delegates ts delegs g p).
  Proof.
    intros [R F]. destruct (g_lost g) eqn:El; [right; intros p (X & _); congruence|].
    destruct (Hm _ _ R) as (_ & (o & E & O) & _). destruct o as [p|].
    - pose proof (proj1 (O p) eq_refl) as M. destruct (deleg_at p _ M) as ([|] & D); [left; exists p; split; [exact El|now split]|].
      right. intros q (_ & Q1 & Q2). assert (Some p = Some q) by now apply O. congruence.
    - right. intros q (_ & Q1 & _). apply O in Q1. discriminate.
  Qed.

  Lemma first_any w o : (forall i, o = Some i <-> first_match ts i w) -> o = None -> forall p, ~ matches ts p w.
  Proof.
    intros O -> p. induction p as [p IH] using (well_founded_induction lt_wf). intros M.
    assert (first_match ts p w) by (split; [exact M|intros j Hj; now apply IH]). apply O in H. discriminate.
  Qed.

  Definition ends_with (i : nat) (v : pstate) (g : progress) (gs : list (nat * list item)) : Prop :=
    exists g' r v', comes_to s ts delegs (length args) g gs g' r /\ pruns next_arg_2 v (r, v') /\
      v_invocations v' = g_options g' /\ v_errors v' = g_errors g' /\ v_has_error v' = g_failed g' /\ reached m0 (v_matcher v') (g_symbols g').

  Lemma deleg_ends i vals off inp pr opt a1 a2 occ m g gs p : fine m g -> delegates ts delegs g p ->
    i = match gs with (i, _) :: _ => i | [] => length args end ->
    ends_with i (mk i vals off inp pr opt a1 a2 occ m g) g gs.
  Proof.
    intros [R F] (El & M & D) Ei. destruct (Hm _ _ R) as (_ & (o & E & O) & _). apply O in M. subst o.
    exists g, (RDeleg p i), (mk i vals off inp pr opt a1 a2 occ m g). split; [rewrite Ei; apply ct_deleg; split; [exact El|split; [now apply O|exact D]]|].
    split; [|now cbn].
    eapply pruns_step; [cbn [pstep mk v_match_error v_matcher]; rewrite El; cbn [negb]; rewrite E; cbn [ok obind]; rewrite (Hdel _ _ R), D; reflexivity|].
    apply pruns_done. unfold mk. cbn [pstep v_match_error]. try rewrite El. reflexivity.
  Qed.

  Lemma reads_leads vals i rest gs : reads dash equal s vals i rest gs -> rest = skipn i args -> i <= length args ->
    forall off inp pr opt a1 a2 occ m g, fine m g -> ends_with i (mk i vals off inp pr opt a1 a2 occ m g) g gs.
  Proof.
    assert (Step : forall vals vals' i a l b gs, nth_error args i = Some a -> reads_arg dash equal s vals i (nth_error args (S i)) a l b ->
      (vals' = true <-> vals = true \/ exists x, In x l /\ ends_options x) ->
      (forall off inp pr opt a1 a2 occ m g, fine m g -> ends_with (if b then S (S i) else S i) (mk (if b then S (S i) else S i) vals' off inp pr opt a1 a2 occ m g) g gs) ->
      forall off inp pr opt a1 a2 occ m g, fine m g -> ends_with i (mk i vals off inp pr opt a1 a2 occ m g) g ((i, l) :: gs)).
    { clear vals i rest gs. intros vals vals' i a l b gs Ea Ra V IH off inp pr opt a1 a2 occ m g F.
      destruct (delegates_dec g m F) as [(p & D)|ND]; [eapply deleg_ends; eauto|].
      destruct (arg_leads i _ a l b vals Ra Ea eq_refl off inp pr opt a1 a2 occ m g F ND)
        as (g1 & vd & m1 & ix & vals1 & off1 & inp1 & pr1 & opt1 & a21 & occ1 & A & F1 & V1 & X1 & L1).
      destruct vd as [| |d].
      - specialize (V1 eq_refl). specialize (X1 eq_refl). subst ix.
        assert (vals1 = vals').
        { rewrite V1. destruct (vals || existsb item_ends l) eqn:Eb.
          - symmetry. apply V. apply orb_prop in Eb as [Eb|Eb]; [now left|right; now apply item_ends_ok].
          - destruct vals'; [|reflexivity]. apply orb_false_elim in Eb as [B1 B2]. destruct (proj1 V eq_refl) as [C|C]; [congruence|]. apply item_ends_ok in C. congruence. }
        subst vals'. clear V1. destruct (IH off1 inp1 pr1 opt1 a a21 occ1 m1 g1 F1) as (g' & r & v' & C & P & Q).
        exists g', r, v'. split; [eapply ct_go_on; eassumption|]. split; [|exact Q]. apply L1. eapply pruns_step; [reflexivity|]. destruct b; exact P.
      - eexists g1, RFailed, _. split; [now apply ct_stop|]. split; [exact L1|]. destruct F1. now cbn.
      - eexists g1, (RShorted d), _. split; [now apply ct_short|]. split; [exact L1|]. destruct F1. now cbn. }
    induction 1 as [vals i|vals vals' i a rest l g' Ra V Rr IH|vals vals' i a w rest l g' Ra V Rr IH]; intros Er Hi.
    - intros off inp pr opt a1 a2 occ m g F. assert (i = length args).
      { assert (length (skipn i args) = 0) as X by now rewrite <- Er. rewrite skipn_length in X. lia. } subst i.
      destruct (delegates_dec g m F) as [(p & D)|ND]; [eapply deleg_ends; eauto|]. destruct F as [R F].
      assert (St : pstep dash equal s args l_error (mk (length args) vals off inp pr opt a1 a2 occ m g) = if g_failed g then Some (inr (RFailed, mk (length args) vals off inp pr opt a1 a2 occ m g)) else None).
      { cbn [pstep mk v_has_error]. destruct (g_failed g); reflexivity. }
      destruct (g_lost g) eqn:El.
      + exists g, RFailed, (mk (length args) vals off inp pr opt a1 a2 occ m g). split; [now apply ct_lost|]. split; [|now cbn].
        eapply pruns_step; [cbn [pstep mk v_match_error v_has_error v_arg_index]; rewrite El, F by easy; cbn [negb]; rewrite Nat.eqb_refl; reflexivity|].
        apply pruns_done. cbn [pstep v_has_error]. rewrite ?F by easy. cbn [negb]. unfold mk. rewrite ?El, ?F by easy. reflexivity.
      + destruct (Hm _ _ R) as (_ & (o & E & O) & _). destruct o as [p|].
        * pose proof (proj1 (O p) eq_refl) as M. destruct (deleg_at p _ M) as ([|] & D); [elim (ND p); split; [exact El|now split]|].
          destruct (g_failed g) eqn:Ef.
          -- exists g, RFailed, (mk (length args) vals off inp pr opt a1 a2 occ m g). split; [eapply ct_failed; eauto; rewrite D; discriminate|]. split; [|cbn; now rewrite Ef].
             eapply pruns_step; [|apply pruns_done; rewrite St; reflexivity].
             cbn [pstep mk v_match_error v_has_error v_arg_index v_matcher]; rewrite El; cbn [negb]; rewrite E; cbn [ok obind]; rewrite (Hdel _ _ R), D; cbn [obind]; rewrite Nat.eqb_refl, Ef; reflexivity.
          -- exists g, (RInvoke p), (mk (length args) vals off inp pr opt a1 a2 occ m g). split; [eapply ct_match; eauto; rewrite D; discriminate|]. split; [|cbn; now rewrite Ef].
             eapply pruns_step with (l' := l_invoke p) (v' := mk (length args) vals off inp pr opt a1 a2 occ m g); [|apply pruns_done; cbn [pstep mk v_match_error]; rewrite El; reflexivity].
             cbn [pstep mk v_match_error v_has_error v_arg_index v_matcher]; rewrite El; cbn [negb]; rewrite E; cbn [ok obind]; rewrite (Hdel _ _ R), D; cbn [obind]; rewrite Nat.eqb_refl, Ef; reflexivity.
        * eexists (failure g (Perror (length args) no_pattern_match too_few)), RFailed, _. split; [apply ct_too_few; [easy|eapply first_any; [exact O|reflexivity]]|].
          split; [|]. { eapply pruns_step; [cbn [pstep mk v_match_error v_matcher v_arg_index]; rewrite El; cbn [negb]; rewrite E; cbn [ok obind]; rewrite Nat.eqb_refl; reflexivity|].
            apply pruns_done. reflexivity. }
          now cbn.
    - assert (Ea : nth_error args i = Some a). { rewrite <- (firstn_skipn i args), nth_error_app2; rewrite firstn_length_le by lia; [|lia]. rewrite Nat.sub_diag, <- Er. reflexivity. }
      assert (Hi' : i < length args) by (apply nth_error_Some; congruence).
      assert (Er' : rest = skipn (S i) args). { change (S i) with (1 + i). rewrite <- (firstn_skipn i args) at 1. rewrite skipn_app, firstn_length_le by lia. replace (1 + i - i) with 1 by lia.
        rewrite <- Er. rewrite skipn_all2 by (rewrite firstn_length_le; lia). reflexivity. }
      assert (En : hd_error rest = nth_error args (S i)). { rewrite Er'. rewrite <- (firstn_skipn (S i) args) at 2. rewrite nth_error_app2; rewrite firstn_length_le by lia; [|lia]. rewrite Nat.sub_diag. now destruct (skipn (S i) args). }
      rewrite En in Ra. eapply (Step vals vals' i a l false g' Ea Ra V). apply IH; [exact Er'|lia].
    - assert (Ea : nth_error args i = Some a). { rewrite <- (firstn_skipn i args), nth_error_app2; rewrite firstn_length_le by lia; [|lia]. rewrite Nat.sub_diag, <- Er. reflexivity. }
      assert (En : nth_error args (S i) = Some w). { rewrite <- (firstn_skipn i args), nth_error_app2; rewrite firstn_length_le by lia; [|lia]. replace (S i - i) with 1 by lia. rewrite <- Er. reflexivity. }
      assert (Hi' : S i < length args) by (apply nth_error_Some; congruence).
      assert (Er' : rest = skipn (S (S i)) args). { rewrite <- (firstn_skipn i args). rewrite skipn_app, firstn_length_le by lia. replace (S (S i) - i) with 2 by lia.
        rewrite <- Er. rewrite skipn_all2 by (rewrite firstn_length_le; lia). reflexivity. }
      rewrite <- En in Ra. eapply (Step vals vals' i a l true g' Ea Ra V). apply IH; [exact Er'|lia].
  Qed.
End Sim.
