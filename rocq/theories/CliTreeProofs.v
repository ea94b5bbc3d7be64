(* Pattern trees as regular expressions over positions. *)
From Coq Require Import List Arith Bool Lia.
From Verif Require Import CliPatternModel CliPatternSpec CliGlushkov.
Import ListNotations.

Scheme telem_mut := Induction for telem Sort Prop
with tseq_mut := Induction for tseq Sort Prop
with tbranches_mut := Induction for tbranches Sort Prop.
Combined Scheme tree_ind from telem_mut, tseq_mut, tbranches_mut.

(* the symbols are numbered from n *)
Fixpoint re_elem (e : telem) (n : nat) : re :=
  match e with
  | ESym _ _ => Sym n
  | EOpt q => Opt (re_seq Eps q n)
  | ERep q => Plus (re_seq Eps q n)
  | EAlt b => re_branches Empty b n
  end
with re_seq (acc : re) (q : tseq) (n : nat) : re :=
  match q with
  | SNil => acc
  | SCons e q => re_seq (Cat acc (re_elem e n)) q (n + length (elem_syms e))
  end
with re_branches (acc : re) (b : tbranches) (n : nat) : re :=
  match b with
  | BOne q => Union acc (re_seq Eps q n)
  | BCons q b => re_branches (Union acc (re_seq Eps q n)) b (n + length (seq_syms q))
  end.

Lemma re_wf :
  (forall e n, wf n (re_elem e n) (n + length (elem_syms e))) /\
  (forall q lo acc n, wf lo acc n -> wf lo (re_seq acc q n) (n + length (seq_syms q))) /\
  (forall b lo acc n, wf lo acc n -> wf lo (re_branches acc b n) (n + length (branches_syms b))).
Proof.
  apply tree_ind.
  - intros i s n. cbn. lia.
  - intros q IH n. cbn [re_elem wf elem_syms]. apply IH. reflexivity.
  - intros q IH n. cbn [re_elem wf elem_syms]. apply IH. reflexivity.
  - intros b IH n. cbn [re_elem wf elem_syms]. apply IH. reflexivity.
  - intros lo acc n H. cbn [re_seq seq_syms length]. now rewrite Nat.add_0_r.
  - intros e IHe q IHq lo acc n H. cbn [re_seq seq_syms]. rewrite app_length, Nat.add_assoc. apply IHq.
    cbn [wf]. exists n. auto.
  - intros q IH lo acc n H. cbn [re_branches branches_syms wf]. exists n. split; [exact H|]. apply IH. reflexivity.
  - intros q IHq b IHb lo acc n H. cbn [re_branches branches_syms]. rewrite app_length, Nat.add_assoc. apply IHb.
    cbn [wf]. exists n. split; [exact H|]. apply IHq. reflexivity.
Qed.

Lemma re_elem_wf e n : wf n (re_elem e n) (n + length (elem_syms e)).
Proof. apply re_wf. Qed.
Lemma re_seq_wf q n : wf n (re_seq Eps q n) (n + length (seq_syms q)).
Proof. apply re_wf. reflexivity. Qed.

Lemma re_productive :
  (forall e n, productive (re_elem e n)) /\
  (forall q acc n, productive acc -> productive (re_seq acc q n)) /\
  (forall b acc n, acc = Empty \/ productive acc -> productive (re_branches acc b n)).
Proof.
  apply tree_ind; intros; cbn [re_elem re_seq re_branches productive]; auto.
  - apply H. exact I.
  - apply H. exact I.
  - apply H0. cbn [productive]. auto.
  - split; [assumption|]. apply H. exact I.
  - apply H0. right. cbn [productive]. split; [assumption|]. apply H. exact I.
Qed.

(* ---- the words ---- *)

Definition labels (lab : nat -> nat * psym) (n : nat) (l : list (nat * psym)) : Prop :=
  forall k x, nth_error l k = Some x -> lab (n + k) = x.

Lemma labels_app lab n l1 l2 : labels lab n (l1 ++ l2) -> labels lab n l1 /\ labels lab (n + length l1) l2.
Proof.
  intros H. split; intros k x E.
  - apply H. rewrite nth_error_app1; [exact E|]. apply nth_error_Some. congruence.
  - rewrite <- Nat.add_assoc. apply H. rewrite nth_error_app2 by lia. rewrite <- E. f_equal. lia.
Qed.

Definition label_of (n : nat) (l : list (nat * psym)) (p : nat) : nat * psym := nth (p - n) l (0, dummy_symbol).

Lemma label_of_ok n l : labels (label_of n l) n l.
Proof.
  intros k x E. unfold label_of. replace (n + k - n) with k by lia. now apply nth_error_nth.
Qed.

Lemma words_to :
  (forall e lab n v, labels lab n (elem_syms e) -> L (re_elem e n) v -> m_elem e (map lab v)) /\
  (forall q lab acc n v, labels lab n (seq_syms q) -> L (re_seq acc q n) v ->
    exists v1 v2, v = v1 ++ v2 /\ L acc v1 /\ m_seq q (map lab v2)) /\
  (forall b lab acc n v, labels lab n (branches_syms b) -> L (re_branches acc b n) v ->
    L acc v \/ m_branches b (map lab v)).
Proof.
  apply tree_ind.
  - intros i s lab n v Hl H. inversion H; subst. cbn [map]. rewrite <- (Nat.add_0_r n).
    rewrite (Hl 0 (i, s) eq_refl). constructor.
  - intros q IH lab n v Hl H. cbn [re_elem elem_syms] in *. inversion H; subst; [constructor|].
    destruct (IH lab Eps n v Hl) as (v1 & v2 & -> & E & M); [assumption|]. inversion E; subst. now constructor.
  - intros q IH lab n v Hl H. cbn [re_elem elem_syms] in *. remember (Plus (re_seq Eps q n)) as r eqn:Er.
    induction H as [|p|a b u v Ha IHa Hb IHb|a b u H0 IH0|a b u H0 IH0|a|a u H0 IH0|a u H0 IH0|a u v Ha IHa Hb IHb]; try discriminate.
    + injection Er as ->. destruct (IH lab Eps n u Hl H0) as (v1 & v2 & -> & E & M). inversion E; subst. now apply m_rep_last.
    + injection Er as ->. destruct (IH lab Eps n u Hl Ha) as (v1 & v2 & -> & E & M). inversion E; subst. cbn [app].
      rewrite map_app. apply m_rep_more; [exact M|now apply IHb].
  - intros b IH lab n v Hl H. cbn [re_elem elem_syms] in *. destruct (IH lab Empty n v Hl H) as [E|M]; [inversion E|now constructor].
  - intros lab acc n v _ H. cbn [re_seq] in H. exists v, []. rewrite app_nil_r. split; [reflexivity|]. split; [exact H|constructor].
  - intros e IHe q IHq lab acc n v Hl H. cbn [re_seq seq_syms] in *. apply labels_app in Hl as [H1 H2].
    destruct (IHq lab _ _ v H2 H) as (v1 & v2 & -> & E & M). inversion E; subst.
    exists u, (v ++ v2). rewrite app_assoc. split; [reflexivity|]. split; [assumption|]. rewrite map_app. constructor; [|exact M].
    now apply (IHe lab n).
  - intros q IH lab acc n v Hl H. cbn [re_branches branches_syms] in *. inversion H; subst; [now left|]. right.
    destruct (IH lab Eps n v Hl) as (v1 & v2 & -> & E & M); [assumption|]. inversion E; subst. now constructor.
  - intros q IHq b IHb lab acc n v Hl H. cbn [re_branches branches_syms] in *. apply labels_app in Hl as [H1 H2].
    destruct (IHb lab _ _ v H2 H) as [E|M]; [|right; now apply m_other]. inversion E; subst; [now left|]. right.
    destruct (IHq lab Eps n v H1) as (v1 & v2 & -> & E2 & M); [assumption|]. inversion E2; subst. now apply m_this.
Qed.

Scheme m_elem_mut := Induction for m_elem Sort Prop
with m_seq_mut := Induction for m_seq Sort Prop
with m_branches_mut := Induction for m_branches Sort Prop.
Combined Scheme m_ind from m_elem_mut, m_seq_mut, m_branches_mut.

Lemma L_re_branches b : forall acc n v, L acc v -> L (re_branches acc b n) v.
Proof.
  induction b as [q|q b IH]; intros acc n v H; cbn [re_branches]; [now apply L_left|]. apply IH. now apply L_left.
Qed.

Lemma words_from :
  (forall e w, m_elem e w -> forall lab n, labels lab n (elem_syms e) -> exists v, w = map lab v /\ L (re_elem e n) v) /\
  (forall q w, m_seq q w -> forall lab acc n v1, labels lab n (seq_syms q) -> L acc v1 ->
    exists v2, w = map lab v2 /\ L (re_seq acc q n) (v1 ++ v2)) /\
  (forall b w, m_branches b w -> forall lab acc n, labels lab n (branches_syms b) ->
    exists v, w = map lab v /\ L (re_branches acc b n) v).
Proof.
  set (P := fun e w (_ : m_elem e w) => forall lab n, labels lab n (elem_syms e) -> exists v, w = map lab v /\ L (re_elem e n) v).
  set (Q := fun q w (_ : m_seq q w) => forall lab acc n v1, labels lab n (seq_syms q) -> L acc v1 ->
    exists v2, w = map lab v2 /\ L (re_seq acc q n) (v1 ++ v2)).
  set (R := fun b w (_ : m_branches b w) => forall lab acc n, labels lab n (branches_syms b) ->
    exists v, w = map lab v /\ L (re_branches acc b n) v).
  cut ((forall e w (H : m_elem e w), P e w H) /\ (forall q w (H : m_seq q w), Q q w H) /\ (forall b w (H : m_branches b w), R b w H)).
  { unfold P, Q, R. intros (H1 & H2 & H3). repeat split; auto. }
  apply m_ind; unfold P, Q, R; clear P Q R.
  - intros i s lab n Hl. exists [n]. split; [|constructor]. cbn [map]. rewrite <- (Hl 0 (i, s) eq_refl), Nat.add_0_r. reflexivity.
  - intros q lab n Hl. exists []. split; [reflexivity|constructor].
  - intros q w H IH lab n Hl. destruct (IH lab Eps n [] Hl L_eps) as (v & -> & E). exists v. split; [reflexivity|]. now apply L_some.
  - intros q w H IH lab n Hl. destruct (IH lab Eps n [] Hl L_eps) as (v & -> & E). exists v. split; [reflexivity|]. now apply L_one.
  - intros q w1 w2 H1 IH1 H2 IH2 lab n Hl. destruct (IH1 lab Eps n [] Hl L_eps) as (v1 & -> & E1).
    destruct (IH2 lab n Hl) as (v2 & -> & E2). exists (v1 ++ v2). rewrite map_app. split; [reflexivity|]. now apply L_more.
  - intros b w H IH lab n Hl. exact (IH lab Empty n Hl).
  - intros lab acc n v1 _ H. exists []. split; [reflexivity|]. now rewrite app_nil_r.
  - intros e q w1 w2 H1 IH1 H2 IH2 lab acc n v1 Hl Ha. cbn [seq_syms] in Hl. apply labels_app in Hl as [L1 L2].
    destruct (IH1 lab n L1) as (u & -> & E1). cbn [re_seq].
    destruct (IH2 lab (Cat acc (re_elem e n)) (n + length (elem_syms e)) (v1 ++ u) L2) as (v2 & -> & E2); [now constructor|].
    exists (u ++ v2). rewrite map_app. split; [reflexivity|]. now rewrite app_assoc.
  - intros q w H IH lab acc n Hl. destruct (IH lab Eps n [] Hl L_eps) as (v & -> & E). exists v. split; [reflexivity|].
    cbn [re_branches]. now apply L_right.
  - intros q b w H IH lab acc n Hl. cbn [branches_syms] in Hl. apply labels_app in Hl as [L1 L2].
    destruct (IH lab Eps n [] L1 L_eps) as (v & -> & E). exists v. split; [reflexivity|].
    cbn [re_branches]. apply L_re_branches. now apply L_right.
  - intros q b w H IH lab acc n Hl. cbn [branches_syms] in Hl. apply labels_app in Hl as [L1 L2].
    cbn [re_branches]. now apply IH.
Qed.

Lemma seq_words q lab n w : labels lab n (seq_syms q) ->
  (m_seq q w <-> exists v, w = map lab v /\ L (re_seq Eps q n) v).
Proof.
  intros Hl. split.
  - intros H. now apply (proj1 (proj2 words_from) q w H lab Eps n []); [|constructor].
  - intros (v & -> & H). destruct (proj1 (proj2 words_to) q lab Eps n v Hl H) as (v1 & v2 & -> & E & M).
    inversion E; subst. exact M.
Qed.

Lemma seq_nullable q n : gnull (re_seq Eps q n) = true <-> m_seq q [].
Proof.
  rewrite <- (L_nil _ n (n + length (seq_syms q))) by apply re_seq_wf.
  rewrite (seq_words q (label_of n (seq_syms q)) n) by apply label_of_ok. split.
  - intros H. exists []. auto.
  - intros (v & E & H). destruct v; [exact H|discriminate].
Qed.
