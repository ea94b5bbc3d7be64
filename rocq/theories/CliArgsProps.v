(* Theorems about the arguments of pattern functions (properties C90, C91, and C92). *)
From Coq Require Import String Ascii List Arith Bool ZArith Lia.
From Verif Require Import CliPatternModel CliPatternSpec CliSpecModel CliRecorderModel CliRecorderSpec CliRecorderProofs2 CliAmbigProofs CliValueProofs
  CliParserModel CliParserSpec CliParserProps CliOptionSpec CliBuildModel CliBuildSpec CliBuildProofs3 CliBuildProps
  CliArgsModel CliArgsSpec CliArgsProofs CliArgsProofs2 CliArgsProofs3.
Import ListNotations.

Lemma elements_numbered f t : numbered (elements f t).
Proof. destruct t as [t|]; [apply (shape_from f t 0)|reflexivity]. Qed.
Lemma elements_ok f t : ~ ambiguous (elements f t) -> ok_q (elements f t) = true.
Proof. intros A. apply ok_iff; [apply elements_numbered|]. intros m F. apply A. apply ambiguous_iff; [apply elements_numbered|]. now exists m. Qed.

(* C90: when a pattern is matched, the descriptions that are generated from the positions
   are those of the one value that the match has.  The last entry of the match is for the
   position after the pattern. *)
Theorem descriptions_exact st k f t w v num : full_seq st k (elements f t) -> ~ ambiguous (elements f t) -> val_seq (elements f t) w v ->
  exists ds l fuel0, says_seq (elements f t) v l /\ (forall l', says_seq (elements f t) v l' -> l' = l) /\ encodes st ds l /\
    forall fuel, fuel0 <= fuel -> generate_descs st fuel k (w ++ [(length (seq_syms (elements f t)), num)]) = Some ds.
Proof.
  intros FS A V. destruct (generate_run st k _ w v num FS (elements_numbered f t) (elements_pop f t) (elements_ok f t A) V) as (ds & l & f0 & S1 & E & G).
  exists ds, l, f0. split; [exact S1|]. split; [intros l' S2; now apply (proj1 (proj2 says_det) _ _ _ S2)|]. now split.
Qed.
Print Assumptions descriptions_exact.

(* C91: the function is called if, and only if there was no error, and no argument of the
   command line is rejected; the arguments it is called with are those that follow from the
   value of the match; and the rejected arguments, from left to right, are all reported. *)
Theorem invoke_exact st args accepts ts k f t w v num has_error :
  full_seq st k (elements f t) -> ~ ambiguous (elements f t) -> val_seq (elements f t) w v ->
  (forall p a, In (p, a) w -> a < length args) -> fits_class false (CTuple ts) (elements f t) ->
  exists ds y r fuel0, (forall fuel, fuel0 <= fuel -> generate_descs st fuel k (w ++ [(length (seq_syms (elements f t)), num)]) = Some ds) /\
    func_args args accepts ts (elements f t) v y r /\ (forall y' r', func_args args accepts ts (elements f t) v y' r' -> y' = y /\ r' = r) /\
    invoke st args accepts ts has_error ds = Some (match r, has_error with [], false => Some y | _, _ => None end, r).
Proof.
  intros FS A V W F. destruct (generate_run st k _ w v num FS (elements_numbered f t) (elements_pop f t) (elements_ok f t A) V) as (ds & l & f0 & S1 & E & G).
  assert (R : reachable args l).
  { apply Forall_forall. intros [e a] H. destruct e as [i y| | |]; try exact I. apply (W i). eapply (proj1 (proj2 says_from)); eassumption. }
  destruct (parse_run st args accepts ts _ v l ds F S1 E R) as (y & r & Y & P). exists ds, y, r, f0. split; [exact G|]. split; [exact Y|].
  split; [intros y' r' Y'; destruct (proj1 (proj2 (gives_det args accepts)) _ _ _ _ _ Y _ _ Y'); auto|].
  unfold invoke. rewrite P. cbn [ArrLib.obind]. destruct r, has_error; reflexivity.
Qed.
Print Assumptions invoke_exact.

(* C92: the check of a function against a pattern is successful if, and only if the function
   fits. *)
Theorem check_exact st ts k q : full_seq st k q ->
  exists b, check st ts k = Some b /\ (b = true <-> fits_class true (CTuple ts) q).
Proof.
  intros FS. inversion FS as [? sq ? Es Fel Np _ _]; subst. unfold check. rewrite Es. cbn [ArrLib.obind].
  exact (proj1 (proj2 (check_ok st)) (CTuple ts) sq q Fel Np).
Qed.
Print Assumptions check_exact.

(* What the constructor makes of it: the check depends only on the pattern, so the
   construction succeeds if the declarations are as they should be. *)
Definition func_decl (pattern : text) (attr : Z) (ts : ptypes) : pattern_decl :=
  Pattern_decl pattern attr false (fun st k => match check st ts k with Some true => true | _ => false end).
Theorem func_decl_mean alnum narrow ds ms pattern attr ts t :
  pattern_mean alnum narrow ds ms (func_decl pattern attr ts) t ->
  forall f, slots_kept f -> fits_class true (CTuple ts) (elements f t).
Proof.
  intros (_ & _ & _ & _ & [E|(st & k & f' & Sk' & FS & E)]) f Sk; [discriminate|]. cbn [func_decl pd_fits] in E.
  destruct (check_exact st ts k _ FS) as (b & C & B). rewrite C in E. apply (fits_elements true _ f' f t Sk' Sk). apply B. now destruct b.
Qed.
Print Assumptions func_decl_mean.
Theorem func_decls_build alnum narrow options patterns ms trees : locale_ok alnum narrow ->
  options_mean alnum narrow options ms -> Forall2 (pattern_mean alnum narrow options ms) (or_empty patterns) trees ->
  (forall d, In d patterns -> pd_deleg d = true \/ (exists p a ts, d = func_decl p a ts) \/ exists b, forall st k, pd_fits d st k = b) ->
  exists fuel0, forall fuel, fuel0 <= fuel -> exists st s ps, build alnum narrow fuel options patterns = POk (st, s, ps).
Proof.
  intros Lok Om Pm Fn.
  (* the action of a delegating pattern is not checked *)
  set (blank := fun d => if pd_deleg d then Pattern_decl (pd_pattern d) (pd_attr d) true (fun _ _ => true) else d).
  assert (B : forall fuel l st s ps i, build_patterns alnum narrow fuel st s ps i (map blank l) = build_patterns alnum narrow fuel st s ps i l).
  { intros fuel l. induction l as [|d l IH]; intros st s ps i; [reflexivity|]. cbn [map build_patterns].
    assert (E : pd_pattern (blank d) = pd_pattern d /\ pd_attr (blank d) = pd_attr d /\ pd_deleg (blank d) = pd_deleg d) by (unfold blank; destruct (pd_deleg d) eqn:D; auto).
    destruct E as (-> & -> & ->). destruct (negb (i =? k_patterns s)); [reflexivity|].
    destruct (CliParserModel.parse_pattern alnum narrow fuel (pd_pattern d) st s i (pd_deleg d)) as [[[st' s'] k]|c m|]; cbn [pbind]; try reflexivity.
    replace (add_pattern s' (pd_attr d) k (pd_deleg d) (pd_fits (blank d)) st') with (add_pattern s' (pd_attr d) k (pd_deleg d) (pd_fits d) st').
    - destruct (add_pattern s' (pd_attr d) k (pd_deleg d) (pd_fits d) st') as [s2|c m|]; cbn [pbind]; [apply IH|reflexivity..].
    - unfold add_pattern, blank. now destruct (pd_deleg d). }
  destruct (build_succeeds alnum narrow options (map blank patterns) ms trees Lok Om) as (f & F).
  - assert (E : or_empty (map blank patterns) = map blank (or_empty patterns)) by now destruct patterns. rewrite E. clear - Pm. induction Pm as [|d t l ts M P IH]; cbn [map]; constructor; [|exact IH].
    destruct M as (A1 & A2 & A3 & A4 & A5). unfold blank. destruct (pd_deleg d) eqn:D; [|unfold pattern_mean; rewrite D; auto].
    split; [exact A1|]. split; [exact A2|]. split; [exact A3|]. split; [exact A4|]. now left.
  - intros d t st k f st' k' f' H Sk Sk' FS FS'. apply in_map_iff in H as (d0 & <- & H). unfold blank. destruct (pd_deleg d0) eqn:D; [reflexivity|].
    destruct (Fn d0 H) as [X|[(p & a & ts & ->)|(b & X)]]; [congruence| |now rewrite !X]. cbn [func_decl pd_fits].
    destruct (check_exact st ts k _ FS) as (b & C & X), (check_exact st' ts k' _ FS') as (b' & C' & X'). rewrite C, C'.
    pose proof (fits_elements true (CTuple ts) f f' t Sk Sk') as Y. destruct b, b'; try reflexivity; [symmetry; apply X'; tauto|apply X; tauto].
  - exists f. intros fuel Hf. destruct (F fuel Hf) as (st & s & ps & E). exists st, s, ps. unfold build in *. 
    destruct (build_options alnum narrow fuel empty_spec 0 options) as [s0|c m|]; cbn [pbind] in *; try discriminate. now rewrite B in E.
Qed.
Print Assumptions func_decls_build.

(* A function that passes the check can be called, provided that std::size_t does not stand
   for alternatives. *)
Theorem checked_works_partial st ts k f t : full_seq st k (elements f t) -> check st ts k = Some true -> all_free (elements f t) ->
  fits_class false (CTuple ts) (elements f t).
Proof.
  intros FS C F. destruct (check_exact st ts k _ FS) as (b & C' & B). apply (proj1 (proj2 fits_drop)); [|exact F]. apply B. congruence.
Qed.
Print Assumptions checked_works_partial.

(* ---- concrete case: [-x] <a> [(<b> | -y)...] (-p | -q) ---- *)

Definition arg_options : list option_decl := [].
Definition arg_pattern : text := txt "[-x] <a> [(<b> | -y)...] (-p | -q)".
Definition arg_types (last : ptype) : ptypes :=
  TCons TBool (TCons (TValue 0) (TCons (TVector (CPlain (TVariant (CCons (CPlain (TValue 1)) (CCons (CTuple TNil) CNil))))) (TCons last TNil))).
Definition monostates : ptype := TVariant (CCons (CTuple TNil) (CCons (CTuple TNil) CNil)).
Definition arg_built := Eval vm_compute in
  match build ascii_alnum ascii_narrow 300 arg_options [func_decl arg_pattern 0 (arg_types monostates)] with
  | POk (st, s, _) => (st, s)
  | _ => (Structure [] [] [] [], empty_spec)
  end.
Definition arg_st : structure := fst arg_built.
Definition arg_leaf (c : string) : ptree := PLeaf (LShort (txt c)).
Definition arg_tree : ptree :=
  PJux (POpt (arg_leaf "-x")) (PJux (PLeaf (LSlot (txt "<a>"))) (PJux (POpt (PRep (PAlt (PLeaf (LSlot (txt "<b>"))) (arg_leaf "-y")))) (PAlt (arg_leaf "-p") (arg_leaf "-q")))).
Definition arg_f : leaf -> psym := sym_of (snd arg_built).
Definition arg_q : tseq := Eval vm_compute in elements arg_f (Some arg_tree).

Lemma branch_two {P : nat -> tseq -> Prop} a b : P 0 a -> P 1 b -> forall k q, branch (BCons a (BOne b)) k = Some q -> P k q.
Proof. intros A B [|[|k]] q E; cbn in E; try discriminate; injection E as <-; assumption. Qed.
Ltac nul := match goal with |- _ <-> nullable ?q => exact (nul_q_iff q) end.
Ltac full_basic := first [reflexivity | nul | (split; [discriminate|]; intros ?X; discriminate)].
Lemma arg_full : full_seq arg_st 7 (elements arg_f (Some arg_tree)).
Proof.
  change (elements arg_f (Some arg_tree)) with arg_q.
  assert (Sy : forall i y e sq, full_elem arg_st e (ESym i y) -> forall n j, nth_error (ps_seqs arg_st) n = Some sq -> sq = Seq 1 j (if is_slot y then 1 else 0) (S i) false ->
    nth_error (ps_elems arg_st) j = Some e -> full_seq arg_st n (SCons (ESym i y) SNil)).
  { intros i y e sq H n j E1 -> E2. eapply full_seq_intro; [exact E1| | | |exact (nul_q_iff (SCons (ESym i y) SNil))]; cbn [q_num_elems q_elems_offset q_num_params q_end_pos].
    - eapply full_cons; [exact E2|exact H|constructor].
    - cbn. now destruct (is_slot y).
    - reflexivity. }
  assert (Alt : forall a b e, ok_q (SCons (EAlt (BCons a (BOne b))) SNil) = true -> nul_q a = false -> nul_q b = false -> e_type e = t_alt ->
    forall al, nth_error (ps_alts arg_st) (e_index e) = Some al -> full_seq arg_st (a_seqs_offset al) a -> full_seq arg_st (S (a_seqs_offset al)) b -> a_num_seqs al = 2 -> a_nullable_seq_index al = 2 ->
    e_collapsible e = (num_params a =? 0) && (num_params b =? 0) -> e_is_param e = true -> one_beyond (branches_syms (BCons a (BOne b))) (e_end_pos e) -> full_elem arg_st e (EAlt (BCons a (BOne b)))).
  { intros a b e _ Na Nb Et al Ea Fa Fb E2 En Ec Ep Eb. eapply full_alt; [exact Et|exact Ea| | |exact Ep|exact Eb| |].
    - rewrite E2. constructor; [exact Fa|]. now constructor.
    - rewrite Ec, andb_true_iff, !Nat.eqb_eq. split; [intros [X Y]; exact (branch_two (P := fun _ q => num_params q = 0) a b X Y)|]. intros H. split; [now apply (H 0)|now apply (H 1)].
    - intros k q _. revert k q. apply (branch_two (P := fun _ q => ~ nullable q)); now apply nul_q_false.
    - left. congruence. }
  eapply full_seq_intro; [reflexivity| |reflexivity|reflexivity|exact (nul_q_iff arg_q)]. cbn [q_num_elems q_elems_offset]. unfold arg_q.
  eapply full_cons; [reflexivity| |].
  { eapply full_opt; try full_basic; [|now split]. eapply Sy; [|reflexivity..]. now apply full_sym. }
  eapply full_cons; [reflexivity|now apply full_sym|]. eapply full_cons; [reflexivity| |].
  { eapply full_opt; try full_basic. eapply full_seq_intro; [reflexivity| |reflexivity|reflexivity|nul]. eapply full_cons; [reflexivity| |constructor].
    eapply full_rep; try full_basic. eapply full_seq_intro; [reflexivity| |reflexivity|reflexivity|nul]. eapply full_cons; [reflexivity| |constructor].
    eapply Alt; try reflexivity; eapply Sy; try reflexivity; now apply full_sym. }
  eapply full_cons; [reflexivity| |constructor]. eapply Alt; try reflexivity; eapply Sy; try reflexivity; now apply full_sym.
Qed.
Lemma arg_clear : ~ ambiguous (elements arg_f (Some arg_tree)).
Proof. intros A. apply ambiguous_iff in A as (m & F); [|reflexivity]. revert m F. apply ok_iff; reflexivity. Qed.

(* foo -x apple bar -y -p, where the numbers are those of the arguments, and foo is number 0 *)
Definition arg_match : list (nat * nat) := [(0, 1); (1, 2); (2, 3); (3, 4); (4, 5)].
Definition arg_value : list pval := [VPresent [VSym 0 1]; VSym 1 2; VPresent [VRep [[VAlt 0 [VSym 2 3]]; [VAlt 1 [VSym 3 4]]]]; VAlt 0 [VSym 4 5]].
Lemma arg_val : val_seq (elements arg_f (Some arg_tree)) arg_match arg_value.
Proof.
  change (elements arg_f (Some arg_tree)) with arg_q. unfold arg_q, arg_value.
  change arg_match with (([(0, 1)] ++ []) ++ [(1, 2)] ++ ((([(2, 3)] ++ []) ++ []) ++ (([(3, 4)] ++ []) ++ [])) ++ ([(4, 5)] ++ []) ++ []).
  apply val_cons; [apply val_present; apply val_cons; [apply val_sym|apply val_nil]|]. apply val_cons; [apply val_sym|]. apply val_cons.
  { apply val_present. rewrite <- (app_nil_r (_ ++ _)). apply val_cons; [|apply val_nil]. apply val_rep. apply val_more; [|apply val_last]; (apply val_cons; [|apply val_nil]).
    - eapply (val_alt _ 0); [reflexivity|]. apply val_cons; [apply val_sym|apply val_nil].
    - eapply (val_alt _ 1); [reflexivity|]. apply val_cons; [apply val_sym|apply val_nil]. }
  apply val_cons; [|apply val_nil]. eapply (val_alt _ 0); [reflexivity|]. apply val_cons; [apply val_sym|apply val_nil].
Qed.
Lemma arg_fits : fits_class false (CTuple (arg_types monostates)) (elements arg_f (Some arg_tree)).
Proof.
  change (elements arg_f (Some arg_tree)) with arg_q. constructor. cbn. unfold arg_types, monostates. constructor; [now constructor|]. constructor; [now constructor|]. constructor.
  - eapply fits_opt_vector; [reflexivity|]. eapply fits_plain; [reflexivity|]. constructor. apply fits_next; [eapply fits_plain; [reflexivity|now constructor]|]. apply fits_last. do 2 constructor.
  - constructor; [|constructor]. constructor. apply fits_next; [do 2 constructor|]. apply fits_last. do 2 constructor.
Qed.
Definition arg_words : list text := map txt ["foo"; "-x"; "apple"; "bar"; "-y"; "-p"]%string.

Example descriptions_ex : full_seq arg_st 7 (elements arg_f (Some arg_tree)) /\ ~ ambiguous (elements arg_f (Some arg_tree)) /\
  val_seq (elements arg_f (Some arg_tree)) arg_match arg_value /\
  option_map (map d_value) (generate_descs arg_st 100 7 (arg_match ++ [(6, 6)])) = Some [1; 2; 1; 2; 0; 3; 1; 0].
Proof. split; [exact arg_full|]. split; [exact arg_clear|]. split; [exact arg_val|]. vm_compute. reflexivity. Qed.

Example invoke_ex : fits_class false (CTuple (arg_types monostates)) (elements arg_f (Some arg_tree)) /\ (forall p a, In (p, a) arg_match -> a < length arg_words) /\
  exists ds, generate_descs arg_st 100 7 (arg_match ++ [(6, 6)]) = Some ds /\
    invoke arg_st arg_words (fun _ _ => true) (arg_types monostates) false ds =
      Some (Some [ABool true; AParsed (txt "apple"); AVec [[AVar 0 [AParsed (txt "bar")]]; [AVar 1 []]]; AVar 0 []], []) /\
    invoke arg_st arg_words (fun t _ => match t with TValue _ => false | _ => true end) (arg_types monostates) false ds =
      Some (None, [(2, txt "apple"); (3, txt "bar")]).
Proof.
  split; [exact arg_fits|]. split; [intros p a H; cbn in H; repeat (destruct H as [H|H]; [injection H as <- <-; cbn; lia|]); destruct H|].
  eexists. split; [vm_compute; reflexivity|]. split; vm_compute; reflexivity.
Qed.

Example check_ex : check arg_st (arg_types monostates) 7 = Some true /\ check arg_st (arg_types TSize) 7 = Some true /\ check arg_st (arg_types TBool) 7 = Some false /\
  check arg_st (TCons TBool TNil) 7 = Some false.
Proof. repeat split. Qed.

(* [-x] <a> [(<b> | -y)...] *)
Definition arg_tree_2 : ptree :=
  PJux (POpt (arg_leaf "-x")) (PJux (PLeaf (LSlot (txt "<a>"))) (POpt (PRep (PAlt (PLeaf (LSlot (txt "<b>"))) (arg_leaf "-y"))))).
Example checked_works_ex : all_free (elements arg_f (Some arg_tree_2)).
Proof.
  cbn. repeat (constructor; try (now constructor)).
  - intros H. specialize (H 0 _ eq_refl). discriminate.
  - refine (branch_two (P := fun _ q => all_free q) _ _ _ _); repeat constructor.
Qed.

(* A function of this kind is accepted by the constructor. *)
Example func_decl_ex : exists st s ps, build ascii_alnum ascii_narrow 300 arg_options [func_decl arg_pattern 0 (arg_types monostates)] = POk (st, s, ps) /\
  build ascii_alnum ascii_narrow 300 arg_options [func_decl arg_pattern 0 (arg_types TBool)] = PErr pattern_func_mismatch func_mismatch.
Proof. do 3 eexists. split; vm_compute; reflexivity. Qed.

(* Refuted: that a function that passes the check can be called.  A parameter of type
   std::size_t passes the check for alternatives without value slots, as it should according
   to cli/spec.hpp:52-54, but an assertion fails when the arguments are parsed. *)
Theorem size_of_alternatives_refuted : exists st k f t ts w v ds, full_seq st k (elements f t) /\ ~ ambiguous (elements f t) /\
  check st ts k = Some true /\ val_seq (elements f t) w v /\
  (forall fuel, 100 <= fuel -> generate_descs st fuel k (w ++ [(length (seq_syms (elements f t)), 6)]) = Some ds) /\
  (exists y, func_args arg_words (fun _ _ => true) ts (elements f t) v y []) /\
  forall accepts has_error, invoke st arg_words accepts ts has_error ds = None.
Proof.
  destruct (descriptions_exact arg_st 7 arg_f (Some arg_tree) arg_match arg_value 6 arg_full arg_clear arg_val) as (ds & l & f0 & _ & _ & _ & G).
  assert (G100 : generate_descs arg_st 100 7 (arg_match ++ [(6, 6)]) = Some ds -> forall fuel, 100 <= fuel -> generate_descs arg_st fuel 7 (arg_match ++ [(6, 6)]) = Some ds).
  { intros H fuel Hf. replace fuel with (100 + (fuel - 100)) by lia. rewrite <- H. reflexivity. }
  exists arg_st, 7, arg_f, (Some arg_tree), (arg_types TSize), arg_match, arg_value, ds. split; [exact arg_full|]. split; [exact arg_clear|]. split; [reflexivity|]. split; [exact arg_val|].
  assert (E : exists ds', generate_descs arg_st 100 7 (arg_match ++ [(6, 6)]) = Some ds' /\ forall accepts has_error, invoke arg_st arg_words accepts (arg_types TSize) has_error ds' = None).
  { eexists. split; [vm_compute; reflexivity|]. intros accepts he. vm_compute. destruct (accepts (TValue 0) [97; 112; 112; 108; 101]), (accepts (TValue 1) [98; 97; 114]); reflexivity. }
  destruct E as (ds' & E1 & E2).
  assert (ds' = ds) as ->.
  { pose proof (G (100 + f0) ltac:(lia)) as X. change (length (seq_syms (elements arg_f (Some arg_tree)))) with 6 in X.
    assert (Y : generate_descs arg_st (100 + f0) 7 (arg_match ++ [(6, 6)]) = Some ds') by (rewrite <- E1; reflexivity). congruence. }
  split; [exact (G100 E1)|]. split; [|exact E2]. exists [ABool true; AParsed (txt "apple"); AVec [[AVar 0 [AParsed (txt "bar")]]; [AVar 1 []]]; ASize 0]. change (elements arg_f (Some arg_tree)) with arg_q. constructor. unfold arg_q, arg_value, arg_types. cbn [params_of takes_param is_slot s_type].
  eapply (gives_more _ _ _ _ _ _ _ _ _ [] []); [apply gives_true|]. eapply (gives_more _ _ _ _ _ _ _ _ _ [] []); [now apply gives_value with (x := txt "apple")|].
  eapply (gives_more _ _ _ _ _ _ _ _ _ [] []).
  - eapply gives_opt_vector; [reflexivity|]. eapply (gives_again _ _ _ _ _ _ _ _ [] []); [|eapply (gives_again _ _ _ _ _ _ _ _ [] []); [|constructor]].
    + eapply gives_plain; [reflexivity|]. eapply gives_variant; [reflexivity|reflexivity|]. eapply gives_plain; [reflexivity|]. now apply gives_value with (x := txt "bar").
    + eapply gives_plain; [reflexivity|]. eapply gives_variant; [reflexivity|reflexivity|]. constructor. constructor.
  - eapply (gives_more _ _ _ _ _ _ _ _ _ [] []); [apply gives_choice|constructor].
Qed.
Print Assumptions size_of_alternatives_refuted.
