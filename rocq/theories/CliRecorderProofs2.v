(* The recorder: what the recursion over syntax trees makes. *)
From Coq Require Import List Arith Bool Lia.
From Verif Require Import CliPatternModel CliPatternSpec CliTreeProofs CliSpecModel CliRecorderModel CliRecorderSpec CliAmbigProofs CliValueProofs CliSpecProofs CliRecorderProofs.
Import ListNotations.

(* ---- branches as lists ---- *)

Fixpoint blist (b : tbranches) : list tseq := match b with BOne q => [q] | BCons q b => q :: blist b end.

Lemma blist_app a b : blist (br_app a b) = blist a ++ blist b.
Proof. induction a as [q|q a IH]; cbn; congruence. Qed.
Lemma branch_nth b k : branch b k = nth_error (blist b) k.
Proof. revert k. induction b as [q|q b IH]; intros [|k]; cbn; auto. now destruct k. Qed.
Lemma nul_b_list b : nul_b b = existsb nul_q (blist b).
Proof. induction b as [q|q b IH]; cbn; [now rewrite orb_false_r|congruence]. Qed.
Lemma rp_b_list b : rp_b b = existsb rp_q (blist b).
Proof. induction b as [q|q b IH]; cbn; [now rewrite orb_false_r|congruence]. Qed.
Lemma ok_b_list b : ok_b b = forallb ok_q (blist b).
Proof. induction b as [q|q b IH]; cbn; [now rewrite andb_true_r|congruence]. Qed.
Fixpoint multi_l (l : list bool) : bool := match l with [] => false | n :: l => (n && existsb (fun x => x) l) || multi_l l end.
Lemma existsb_map {A} (f : A -> bool) l : existsb (fun x => x) (map f l) = existsb f l.
Proof. induction l as [|x l IH]; cbn; congruence. Qed.
Lemma multi_list b : multi b = multi_l (map nul_q (blist b)).
Proof. induction b as [q|q b IH]; cbn [multi multi_l blist map existsb]; [now destruct (nul_q q)|]. now rewrite IH, existsb_map, nul_b_list. Qed.
Lemma syms_list b : branches_syms b = concat (map seq_syms (blist b)).
Proof. induction b as [q|q b IH]; cbn; [now rewrite app_nil_r|congruence]. Qed.

(* ---- sequences put together ---- *)

Lemma nul_app a b : nul_q (seq_app a b) = nul_q a && nul_q b.
Proof. induction a as [|e a IH]; cbn [seq_app nul_q]; [reflexivity|]. rewrite IH. apply andb_assoc. Qed.
Lemma rp_app a b : rp_q (seq_app a b) = (rp_q a && nul_q b) || (nul_q a && rp_q b).
Proof.
  induction a as [|e a IH]; cbn [seq_app rp_q nul_q]; [reflexivity|]. rewrite IH, nul_app.
  destruct (rp_e e), (nul_e e), (nul_q a), (nul_q b), (rp_q a), (rp_q b); reflexivity.
Qed.
Lemma ok_app a b : ok_q (seq_app a b) = ok_q a && ok_q b.
Proof. induction a as [|e a IH]; cbn [seq_app ok_q]; [reflexivity|]. rewrite IH. apply andb_assoc. Qed.
Lemma params_app a b : num_params (seq_app a b) = num_params a + num_params b.
Proof. induction a as [|e a IH]; cbn [seq_app num_params]; [reflexivity|]. rewrite IH. lia. Qed.
Lemma syms_app a b : seq_syms (seq_app a b) = seq_syms a ++ seq_syms b.
Proof. induction a as [|e a IH]; cbn [seq_app seq_syms]; [reflexivity|]. rewrite IH. apply app_assoc. Qed.
Lemma flaw_app m a b : flaw_seq m a \/ flaw_seq m b -> flaw_seq m (seq_app a b).
Proof.
  intros [H|H].
  - induction H; cbn [seq_app]; [now apply flaw_here|now apply flaw_later].
  - induction a as [|e a IH]; cbn [seq_app]; [exact H|now apply flaw_later].
Qed.

(* ---- shapes ---- *)

Lemma shape_ext f g t : (forall l, In l (leaves t) -> f l = g l) -> forall pos, shape f pos t = shape g pos t.
Proof.
  induction t as [l|a IH|a IH|a IHa b IHb|a IHa b IHb]; cbn [leaves shape]; intros H pos.
  - rewrite H; [reflexivity|now left].
  - now rewrite IH.
  - now rewrite IH.
  - rewrite IHa, IHb; [reflexivity| |]; intros l Hl; apply H; apply in_app_iff; auto.
  - rewrite IHa, IHb; [reflexivity| |]; intros l Hl; apply H; apply in_app_iff; auto.
Qed.

Lemma leaves_pos t : 0 < length (leaves t).
Proof. induction t; cbn [leaves]; rewrite ?app_length; cbn; lia. Qed.

Lemma combine_seq {A} pos (a b : list A) :
  combine (List.seq pos (length a)) a ++ combine (List.seq (pos + length a) (length b)) b = combine (List.seq pos (length (a ++ b))) (a ++ b).
Proof.
  revert pos. induction a as [|x a IH]; intros pos; cbn [length List.seq combine app]; [now rewrite Nat.add_0_r|].
  f_equal. rewrite <- IH. now replace (S pos + length a) with (pos + S (length a)) by lia.
Qed.

Lemma shape_syms f t : forall pos, branches_syms (snd (shape f pos t)) = seq_syms (fst (shape f pos t)) /\
  seq_syms (fst (shape f pos t)) = combine (List.seq pos (length (leaves t))) (map f (leaves t)).
Proof.
  induction t as [l|a IH|a IH|a IHa b IHb|a IHa b IHb]; cbn [leaves shape fst snd seq_syms branches_syms elem_syms]; intros pos; rewrite ?app_nil_r.
  - split; reflexivity.
  - split; [reflexivity|apply IH].
  - split; [reflexivity|apply IH].
  - rewrite syms_app. split; [reflexivity|]. destruct (IHa pos) as [_ ->], (IHb (pos + length (leaves a))) as [_ ->].
    rewrite <- (map_length f (leaves a)) at 2. rewrite <- !(map_length f), map_app, <- combine_seq. reflexivity.
  - rewrite !syms_list, blist_app, map_app, concat_app, <- !syms_list. split; [reflexivity|].
    destruct (IHa pos) as [-> ->], (IHb (pos + length (leaves a))) as [-> ->].
    rewrite <- (map_length f (leaves a)) at 2. rewrite <- !(map_length f), map_app, <- combine_seq. reflexivity.
Qed.

Lemma combine_fst {A B} (a : list A) (b : list B) : length a = length b -> map fst (combine a b) = a.
Proof. revert b. induction a as [|x a IH]; intros [|y b] H; cbn in *; try lia; [reflexivity|]. rewrite IH; [reflexivity|lia]. Qed.

Lemma shape_length f t pos : length (seq_syms (fst (shape f pos t))) = length (leaves t).
Proof. rewrite (proj2 (shape_syms f t pos)), combine_length, seq_length, map_length. lia. Qed.
Lemma shape_from f t pos : from (seq_syms (fst (shape f pos t))) pos.
Proof.
  unfold from. rewrite shape_length, (proj2 (shape_syms f t pos)). apply combine_fst. now rewrite seq_length, map_length.
Qed.

Lemma beyond l pos : from l pos -> l <> [] -> one_beyond l (pos + length l).
Proof.
  unfold from, one_beyond. intros F N. destruct (@exists_last _ l N) as (l' & [i s] & ->). rewrite rev_app_distr. cbn [rev app].
  rewrite map_app, app_length in F. cbn [map fst length] in F. rewrite Nat.add_1_r, seq_S in F. apply app_inj_tail in F as [_ ->].
  rewrite app_length. cbn. lia.
Qed.

Lemma shape_beyond f t pos : one_beyond (seq_syms (fst (shape f pos t))) (pos + length (leaves t)).
Proof.
  rewrite <- (shape_length f t pos). apply beyond; [apply shape_from|]. intros H. pose proof (shape_length f t pos) as L. rewrite H in L.
  pose proof (leaves_pos t). cbn in L. lia.
Qed.

(* what does not depend on the symbols *)
Lemma shape_bool f g t : forall p p',
  nul_q (fst (shape f p t)) = nul_q (fst (shape g p' t)) /\ rp_q (fst (shape f p t)) = rp_q (fst (shape g p' t)) /\
  ok_q (fst (shape f p t)) = ok_q (fst (shape g p' t)) /\
  map nul_q (blist (snd (shape f p t))) = map nul_q (blist (snd (shape g p' t))) /\
  map rp_q (blist (snd (shape f p t))) = map rp_q (blist (snd (shape g p' t))) /\
  map ok_q (blist (snd (shape f p t))) = map ok_q (blist (snd (shape g p' t))).
Proof.
  assert (FA : forall A (h : A -> bool) l, forallb (fun x => x) (map h l) = forallb h l).
  { intros A h l. induction l as [|x l IH]; cbn; congruence. }
  induction t as [l|a IH|a IH|a IHa b IHb|a IHa b IHb]; intros p p'; cbn [shape fst snd].
  - repeat split.
  - destruct (IH p p') as (A & B & C & _). cbn [nul_q nul_e rp_q rp_e ok_q ok_e blist map]. rewrite A, B, C. repeat split.
  - destruct (IH p p') as (A & B & C & _). cbn [nul_q nul_e rp_q rp_e ok_q ok_e blist map]. rewrite A, B, C. repeat split.
  - destruct (IHa p p') as (A & B & C & _), (IHb (p + length (leaves a)) (p' + length (leaves a))) as (A' & B' & C' & _).
    cbn [blist map]. rewrite !nul_app, !rp_app, !ok_app, A, B, C, A', B', C'. repeat split.
  - destruct (IHa p p') as (_ & _ & _ & A & B & C), (IHb (p + length (leaves a)) (p' + length (leaves a))) as (_ & _ & _ & A' & B' & C').
    cbn [nul_q nul_e rp_q rp_e ok_q ok_e]. rewrite !nul_b_list, !rp_b_list, !ok_b_list, !multi_list, <- !(existsb_map nul_q), <- !(existsb_map rp_q), <- !(FA _ ok_q).
    rewrite !blist_app, !map_app, A, B, C, A', B', C'. repeat split.
Qed.
