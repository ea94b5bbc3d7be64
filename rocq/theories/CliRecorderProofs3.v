(* The recorder: structures, and the invariant of the recursion. *)
From Coq Require Import List Arith Bool Lia.
From Verif Require Import CliPatternModel CliPatternSpec CliTreeProofs CliSpecModel CliRecorderModel CliRecorderSpec CliAmbigProofs CliValueProofs CliSpecProofs CliRecorderProofs CliRecorderProofs2.
Import ListNotations.

Scheme full_elem_mut := Induction for full_elem Sort Prop
with full_elems_mut := Induction for full_elems Sort Prop
with full_seq_mut := Induction for full_seq Sort Prop
with full_branches_mut := Induction for full_branches Sort Prop.
Combined Scheme full_ind from full_elem_mut, full_elems_mut, full_seq_mut, full_branches_mut.

Lemma extends_refl a : extends a a.
Proof. repeat split; exists []; now rewrite app_nil_r. Qed.
Lemma extends_trans a b c : extends a b -> extends b c -> extends a c.
Proof.
  intros ((l1 & E1) & (l2 & E2) & (l3 & E3) & (l4 & E4)) ((m1 & F1) & (m2 & F2) & (m3 & F3) & (m4 & F4)).
  repeat split; eexists; rewrite ?F1, ?F2, ?F3, ?F4, ?E1, ?E2, ?E3, ?E4, <- app_assoc; reflexivity.
Qed.
Lemma nth_ext_app {A} (l l' m : list A) i x : l' = l ++ m -> nth_error l i = Some x -> nth_error l' i = Some x.
Proof. intros -> H. rewrite nth_error_app1; [exact H|]. apply nth_error_Some. congruence. Qed.

Lemma full_mono a b : extends a b ->
  (forall e t, full_elem a e t -> full_elem b e t) /\ (forall i n q, full_elems a i n q -> full_elems b i n q) /\
  (forall i q, full_seq a i q -> full_seq b i q) /\ (forall i n t, full_branches a i n t -> full_branches b i n t).
Proof.
  intros ((l1 & E1) & (l2 & E2) & (l3 & E3) & (l4 & E4)).
  set (P := fun e t (_ : full_elem a e t) => full_elem b e t).
  set (Q := fun i n q (_ : full_elems a i n q) => full_elems b i n q).
  set (R := fun i q (_ : full_seq a i q) => full_seq b i q).
  set (S := fun i n t (_ : full_branches a i n t) => full_branches b i n t).
  cut ((forall e t H, P e t H) /\ (forall i n q H, Q i n q H) /\ (forall i q H, R i q H) /\ (forall i n t H, S i n t H)).
  { unfold P, Q, R, S. intros (A & B & C & D). repeat split; intros; auto. }
  apply full_ind; unfold P, Q, R, S; clear P Q R S; intros.
  - apply full_sym; auto. eapply nth_ext_app; eassumption.
  - now apply full_opt.
  - now apply full_rep.
  - eapply full_alt; eauto. eapply nth_ext_app; eassumption.
  - constructor.
  - eapply full_cons; eauto. eapply nth_ext_app; eassumption.
  - eapply full_seq_intro; eauto. eapply nth_ext_app; eassumption.
  - now constructor.
  - now constructor.
Qed.

(* staged elements, staged sequences *)
Inductive full_list (st : structure) : list elem -> tseq -> Prop :=
| fl_nil : full_list st [] SNil
| fl_cons : forall e es te q, full_elem st e te -> full_list st es q -> full_list st (e :: es) (SCons te q).

Definition full_sq (st : structure) (sq : seq) (q : tseq) : Prop :=
  full_elems st (q_elems_offset sq) (q_num_elems sq) q /\ q_num_params sq = num_params q /\
  one_beyond (seq_syms q) (q_end_pos sq) /\ (q_nullable sq = true <-> nullable q).

Lemma full_list_mono a b es q : extends a b -> full_list a es q -> full_list b es q.
Proof. intros X H. induction H; constructor; auto. now apply (full_mono a b X). Qed.
Lemma full_sq_mono a b sq q : extends a b -> full_sq a sq q -> full_sq b sq q.
Proof. intros X (A & B). split; [now apply (full_mono a b X)|exact B]. Qed.
Lemma full_sqs_mono a b l qs : extends a b -> Forall2 (full_sq a) l qs -> Forall2 (full_sq b) l qs.
Proof. intros X H. induction H; constructor; auto. now apply (full_sq_mono a b). Qed.
Lemma full_list_app st a b p q : full_list st a p -> full_list st b q -> full_list st (a ++ b) (seq_app p q).
Proof. intros H1 H2. induction H1; cbn [app seq_app]; [exact H2|now constructor]. Qed.

Lemma full_list_elems st es q a b : ps_elems st = a ++ es ++ b -> full_list st es q -> full_elems st (length a) (length es) q.
Proof.
  intros E H. revert a E. induction H as [|e es te q H1 H2 IH]; intros a E; cbn [length]; [constructor|].
  apply (full_cons st _ _ e); [rewrite E, nth_error_app2, Nat.sub_diag by lia; reflexivity|exact H1|].
  replace (S (length a)) with (length (a ++ [e])) by (rewrite app_length; cbn; lia). apply IH. rewrite E, <- app_assoc. reflexivity.
Qed.

Lemma full_sqs_branches st b : forall l x y, ps_seqs st = x ++ l ++ y -> Forall2 (full_sq st) l (blist b) -> full_branches st (length x) (length l) b.
Proof.
  induction b as [q|q b IH]; cbn [blist]; intros l x y E H; inversion H as [|sq ? l' ? (A & B & C & D) H']; subst.
  - inversion H'; subst. cbn [length]. constructor. apply (full_seq_intro st _ sq); auto. rewrite E, nth_error_app2, Nat.sub_diag by lia. reflexivity.
  - cbn [length]. constructor.
    + apply (full_seq_intro st _ sq); auto. rewrite E, nth_error_app2, Nat.sub_diag by lia. reflexivity.
    + replace (S (length x)) with (length (x ++ [sq])) by (rewrite app_length; cbn; lia). apply (IH l' _ y); [|exact H']. rewrite E, <- app_assoc. reflexivity.
Qed.

(* ---- the operations ---- *)

Definition grown (st : structure) (es : list elem) (sqs : list seq) (alts : list alt) : structure :=
  Structure (ps_syms st) (ps_elems st ++ es) (ps_seqs st ++ sqs) (ps_alts st ++ alts).

Lemma grown_extends st es sqs alts : extends st (grown st es sqs alts).
Proof. unfold grown. repeat split; cbn; eexists; try reflexivity. symmetry. apply app_nil_r. Qed.

Lemma firstn_len {A} (a b : list A) : firstn (length a) (a ++ b) = a.
Proof. rewrite firstn_app, Nat.sub_diag, firstn_O, app_nil_r. apply firstn_all. Qed.
Lemma skipn_len {A} (a b : list A) : skipn (length a) (a ++ b) = b.
Proof. rewrite skipn_app, Nat.sub_diag, skipn_O, skipn_all. reflexivity. Qed.

Lemma stage_seq_eq x E es np nul : x_elems x = E ++ es ->
  stage_seq x (length E) np nul = POk (Rstate (x_levels x) (x_seqs x ++ [Seq (length es) (length (ps_elems (x_st x))) np (x_next_pos x) nul]) E
    (x_level x) (x_next_pos x) (grown (x_st x) es [] []) (x_spec x)).
Proof.
  intros H. unfold stage_seq. rewrite H, app_length. rewrite (proj2 (Nat.leb_le _ _)) by lia.
  rewrite firstn_len, skipn_len. unfold grown. rewrite !app_nil_r. repeat f_equal. lia.
Qed.

Lemma close_seq_eq x E es np nul rep l ls : x_elems x = E ++ es -> x_level x = LSeq (length E) np nul rep -> x_levels x = l :: ls ->
  close_seq x = POk (Rstate ls (x_seqs x) E l (x_next_pos x)
    (grown (x_st x) es [Seq (length es) (length (ps_elems (x_st x))) np (x_next_pos x) nul] []) (x_spec x), length (ps_seqs (x_st x))).
Proof.
  intros H1 H2 H3. unfold close_seq, add_seq. rewrite H2, (stage_seq_eq x E es np nul H1). cbn [pbind x_st x_seqs grown ps_syms ps_elems ps_seqs ps_alts].
  rewrite app_length. cbn [length]. replace (length (x_seqs x) + 1 - 1) with (length (x_seqs x)) by lia.
  rewrite nth_error_app2, Nat.sub_diag by lia. cbn [nth_error pget pbind]. unfold pop_level. cbn [x_levels]. rewrite H3. cbn [pbind x_seqs x_elems x_next_pos x_st x_spec].
  rewrite firstn_len. unfold grown. rewrite !app_nil_r. reflexivity.
Qed.

Definition alt_step (l : level) (q : tseq) : level :=
  match l with
  | LAlt soff nsi nul rep hasp mult =>
    LAlt soff (nsi + (if nul || nul_q q then 0 else 1)) (nul || nul_q q) (rep || rp_q q) (hasp || (0 <? num_params q))
      (if nul && nul_q q then true else mult)
  | l => l
  end.

Definition is_alt (l : level) : Prop := match l with LAlt _ _ _ _ _ _ => True | _ => False end.
Lemma alt_steps_alt l qs : is_alt l -> is_alt (fold_left alt_step qs l).
Proof. revert l. induction qs as [|q qs IH]; intros l H; cbn [fold_left]; [exact H|]. apply IH. now destruct l. Qed.

Lemma close_branch_eq x E es q l ls : x_elems x = E ++ es -> x_level x = LSeq (length E) (num_params q) (nul_q q) (rp_q q) ->
  x_levels x = l :: ls -> is_alt l ->
  close_branch x = POk (Rstate ls (x_seqs x ++ [Seq (length es) (length (ps_elems (x_st x))) (num_params q) (x_next_pos x) (nul_q q)]) E
    (alt_step l q) (x_next_pos x) (grown (x_st x) es [] []) (x_spec x)).
Proof.
  intros H1 H2 H3 H4. unfold close_branch. rewrite H2, (stage_seq_eq x E es _ _ H1). cbn [pbind]. unfold pop_level. cbn [x_levels]. rewrite H3.
  cbn [pbind x_level]. destruct l as [|soff nsi nul rep hasp mult]; [easy|]. reflexivity.
Qed.

Lemma close_alt_eq x sq sqs soff nsi nul rep hasp mult l ls : x_seqs x = sq ++ sqs -> soff = length sq ->
  x_level x = LAlt soff nsi nul rep hasp mult -> x_levels x = l :: ls ->
  close_alt x = POk (Rstate ls sq (x_elems x) l (x_next_pos x)
    (grown (x_st x) [] sqs [Alt (length sqs) (length (ps_seqs (x_st x))) nsi]) (x_spec x), length (ps_alts (x_st x))).
Proof.
  intros H1 -> H2 H3. unfold close_alt, add_alt. rewrite H2, H1, app_length, (proj2 (Nat.leb_le _ _)) by lia. cbn [pbind].
  unfold pop_level. cbn [x_levels]. rewrite H3. cbn [pbind x_seqs x_elems x_next_pos x_st x_spec]. rewrite firstn_len, skipn_len.
  unfold grown. rewrite app_nil_r. repeat f_equal. lia.
Qed.

(* the state of alternatives after all branches *)
Fixpoint first_nul (qs : list tseq) : nat := match qs with [] => 0 | q :: qs => if nul_q q then 0 else S (first_nul qs) end.

Lemma alt_steps soff qs : forall nsi nul rep hasp mult,
  fold_left alt_step qs (LAlt soff nsi nul rep hasp mult) =
  LAlt soff (nsi + if nul then 0 else first_nul qs) (nul || existsb nul_q qs) (rep || existsb rp_q qs)
    (hasp || existsb (fun q => 0 <? num_params q) qs)
    (mult || (nul && existsb nul_q qs) || multi_l (map nul_q qs)).
Proof.
  induction qs as [|q qs IH]; intros nsi nul rep hasp mult; cbn [fold_left existsb first_nul map multi_l].
  - destruct nul; rewrite ?andb_false_r, ?orb_false_r, ?Nat.add_0_r; reflexivity.
  - cbn [alt_step]. rewrite IH. rewrite <- !orb_assoc, existsb_map. f_equal.
    + destruct nul, (nul_q q); cbn [orb]; lia.
    + destruct nul, (nul_q q), mult, (existsb nul_q qs), (multi_l (map nul_q qs)); reflexivity.
Qed.
