(* Values of patterns: when no rule is broken, matches determine the value. *)
From Coq Require Import List Arith Bool Lia.
From Verif Require Import CliPatternModel CliPatternSpec CliTreeProofs CliSpecModel CliRecorderModel CliRecorderSpec CliAmbigProofs.
Import ListNotations.

Scheme val_elem_mut := Induction for val_elem Sort Prop
with val_seq_mut := Induction for val_seq Sort Prop
with val_reps_mut := Induction for val_reps Sort Prop.
Combined Scheme val_ind from val_elem_mut, val_seq_mut, val_reps_mut.

(* ---- there is a value if, and only if there is a match ---- *)

Lemma val_matches :
  (forall e w v, val_elem e w v -> exists u, m_elem e u /\ map fst u = map fst w) /\
  (forall q w v, val_seq q w v -> exists u, m_seq q u /\ map fst u = map fst w) /\
  (forall q w v, val_reps q w v -> exists u, m_elem (ERep q) u /\ map fst u = map fst w).
Proof.
  set (P := fun e w v (_ : val_elem e w v) => exists u, m_elem e u /\ map fst u = map fst w).
  set (Q := fun q w v (_ : val_seq q w v) => exists u, m_seq q u /\ map fst u = map fst w).
  set (R := fun q w v (_ : val_reps q w v) => exists u, m_elem (ERep q) u /\ map fst u = map fst w).
  cut ((forall e w v (H : val_elem e w v), P e w v H) /\ (forall q w v (H : val_seq q w v), Q q w v H) /\ (forall q w v (H : val_reps q w v), R q w v H)).
  { unfold P, Q, R. intros (A & B & C). split; [|split]; intros; eauto. }
  apply val_ind; unfold P, Q, R; clear P Q R.
  - intros i s a. exists [(i, s)]. split; [constructor|reflexivity].
  - intros q. exists []. split; [constructor|reflexivity].
  - intros q w v H (u & M & E). exists u. split; [now constructor|exact E].
  - intros q w v H (u & M & E). exists u. auto.
  - intros b k q w v Eb H (u & M & E). exists u. split; [|exact E]. constructor. apply m_branches_iff. eauto.
  - exists []. split; [constructor|reflexivity].
  - intros e q w1 w2 v vs H1 (u1 & M1 & E1) H2 (u2 & M2 & E2). exists (u1 ++ u2). split; [now constructor|].
    now rewrite !map_app, E1, E2.
  - intros q w v H (u & M & E). exists u. split; [now constructor|exact E].
  - intros q w1 w2 v vs H1 (u1 & M1 & E1) H2 (u2 & M2 & E2). exists (u1 ++ u2). split; [now apply m_rep_more|].
    now rewrite !map_app, E1, E2.
Qed.

Lemma map_fst_split {A B} (u1 u2 : list (nat * A)) (w : list (nat * B)) : map fst (u1 ++ u2) = map fst w ->
  exists w1 w2, w = w1 ++ w2 /\ map fst u1 = map fst w1 /\ map fst u2 = map fst w2.
Proof.
  intros H. exists (firstn (length u1) w), (skipn (length u1) w). rewrite firstn_skipn. split; [reflexivity|].
  rewrite <- firstn_map, <- skipn_map, <- H, map_app, firstn_app, skipn_app, <- (map_length fst u1).
  rewrite firstn_all, skipn_all, Nat.sub_diag, firstn_O, app_nil_r. cbn [app skipn]. auto.
Qed.

Lemma matches_val :
  (forall e u, m_elem e u -> forall w, map fst u = map fst w -> exists v, val_elem e w v) /\
  (forall q u, m_seq q u -> forall w, map fst u = map fst w -> exists v, val_seq q w v) /\
  (forall b u, m_branches b u -> forall w, map fst u = map fst w -> exists k q v, branch b k = Some q /\ val_seq q w v).
Proof.
  set (P := fun e u (_ : m_elem e u) => forall w, map fst u = map fst w -> exists v, val_elem e w v).
  set (Q := fun q u (_ : m_seq q u) => forall w, map fst u = map fst w -> exists v, val_seq q w v).
  set (R := fun b u (_ : m_branches b u) => forall w, map fst u = map fst w -> exists k q v, branch b k = Some q /\ val_seq q w v).
  cut ((forall e w (H : m_elem e w), P e w H) /\ (forall q w (H : m_seq q w), Q q w H) /\ (forall b w (H : m_branches b w), R b w H)).
  { unfold P, Q, R. intros (H1 & H2 & H3). split; [|split]; intros; eauto. }
  apply m_ind; unfold P, Q, R; clear P Q R.
  - intros i s [|[p a] [|x w]] E; cbn [map fst] in E; try discriminate. injection E as <-. eexists. constructor.
  - intros q [|x w] E; [|discriminate]. eexists. constructor.
  - intros q w H IH w' E. destruct (IH w' E) as (v & V). exists (VPresent v). now apply val_present.
  - intros q w H IH w' E. destruct (IH w' E) as (v & V). exists (VRep [v]). apply val_rep. now apply val_last.
  - intros q w1 w2 H1 IH1 H2 IH2 w E. apply map_fst_split in E as (x1 & x2 & -> & E1 & E2).
    destruct (IH1 _ E1) as (v1 & V1), (IH2 _ E2) as (v2 & V2). inversion V2 as [| | |? ? vs V3|]; subst. exists (VRep (v1 :: vs)). apply val_rep. now apply val_more.
  - intros b w H IH w' E. destruct (IH w' E) as (k & q & v & Eb & V). exists (VAlt k v). now apply (val_alt b k q).
  - intros [|x w] E; [|discriminate]. eexists. constructor.
  - intros e q w1 w2 H1 IH1 H2 IH2 w E. apply map_fst_split in E as (x1 & x2 & -> & E1 & E2).
    destruct (IH1 _ E1) as (v1 & V1), (IH2 _ E2) as (v2 & V2). exists (v1 :: v2). now constructor.
  - intros q w H IH w' E. destruct (IH w' E) as (v & V). exists 0, q, v. auto.
  - intros q b w H IH w' E. destruct (IH w' E) as (v & V). exists 0, q, v. auto.
  - intros q b w H IH w' E. destruct (IH w' E) as (k & q' & v & Eb & V). exists (S k), q', v. auto.
Qed.

Lemma seq_val q u w : m_seq q u -> map fst u = map fst w -> exists v, val_seq q w v.
Proof. intros H. now apply matches_val. Qed.
Lemma val_nullable q v : val_seq q [] v -> nul_q q = true.
Proof. intros H. apply val_matches in H as (u & M & E). destruct u; [now apply nul_iff|discriminate]. Qed.
Lemma val_e_nullable e v : val_elem e [] v -> nul_e e = true.
Proof. intros H. apply val_matches in H as (u & M & E). destruct u; [now apply nul_iff|discriminate]. Qed.

Lemma same_inside {A B} lo hi (u : list (nat * A)) (w : list (nat * B)) : map fst u = map fst w -> inside lo hi u -> inside lo hi w.
Proof.
  intros E H p b Hi. apply (in_map fst) in Hi. rewrite <- E in Hi. apply in_map_iff in Hi as ([p' a] & E2 & Hi). cbn [fst] in E2. subst p'.
  now apply (H p a).
Qed.
Lemma val_inside q w v lo : val_seq q w v -> from (seq_syms q) lo -> inside lo (lo + length (seq_syms q)) w.
Proof. intros H F. apply val_matches in H as (u & M & E). eapply same_inside; [exact E|]. now apply seq_inside. Qed.
Lemma val_e_inside e w v lo : val_elem e w v -> from (elem_syms e) lo -> inside lo (lo + length (elem_syms e)) w.
Proof. intros H F. apply val_matches in H as (u & M & E). eapply same_inside; [exact E|]. now apply elem_inside. Qed.
Lemma val_r_inside q w v lo : val_reps q w v -> from (seq_syms q) lo -> inside lo (lo + length (seq_syms q)) w.
Proof. intros H F. apply val_matches in H as (u & M & E). eapply same_inside; [exact E|]. now apply (elem_inside (ERep q)). Qed.

(* ---- what comes next ---- *)

Definition starts_q (q : tseq) (p : nat) : Prop := exists a w v, val_seq q ((p, a) :: w) v.
Definition starts_e (e : telem) (p : nat) : Prop := exists a w v, val_elem e ((p, a) :: w) v.

(* If the next position is in the range, it starts something, and this something is then not
   nullable, nor repeating. *)
Definition ahead (lo hi : nat) (starts : nat -> Prop) (nul rp : bool) (s : list (nat * nat)) : Prop :=
  forall p a s', s = (p, a) :: s' -> lo <= p < hi -> starts p /\ nul = false /\ rp = false.

Definition ahead_e lo e s := ahead lo (lo + length (elem_syms e)) (starts_e e) (nul_e e) (rp_e e) s.
Definition ahead_q lo q s := ahead lo (lo + length (seq_syms q)) (starts_q q) (nul_q q) (rp_q q) s.

Lemma ahead_nil lo hi P n r : ahead lo hi P n r []. Proof. intros p a s' H. discriminate. Qed.

Lemma ahead_out lo hi P n r s : (forall p a s', s = (p, a) :: s' -> ~ lo <= p < hi) -> ahead lo hi P n r s.
Proof. intros H p a s' E R. exfalso. now apply (H p a s' E). Qed.

(* what follows the first element of a sequence *)
Lemma ahead_head lo e q w2 vs s : from (elem_syms e ++ seq_syms q) lo ->
  ahead_q lo (SCons e q) s -> val_seq q w2 vs -> ahead_e lo e (w2 ++ s).
Proof.
  intros F H V p a s' E R. apply from_app in F as [Fe Fq]. destruct w2 as [|[p2 a2] w2].
  - cbn [app] in E. destruct (H p a s' E) as (S1 & N & RP).
    { cbn [seq_syms]. rewrite app_length. lia. }
    cbn [nul_q rp_q] in N, RP. rewrite (val_nullable q vs V) in N, RP. rewrite andb_true_r in N. rewrite andb_true_r in RP.
    apply orb_false_iff in RP as [RP _]. split; [|auto].
    destruct S1 as (a1 & w & v & S1). inversion S1 as [|? ? x1 x2 v1 v2 A B X Y]; subst. destruct x1 as [|[px ax] x1].
    + cbn [app] in Y. subst x2. pose proof (val_inside _ _ _ _ B Fq p a1 ltac:(now left)). lia.
    + injection Y as -> -> _. now exists a1, x1, v1.
  - cbn [app] in E. injection E as <- <- _. pose proof (val_inside _ _ _ _ V Fq p2 a2 ltac:(now left)). lia.
Qed.

(* what follows the rest of a sequence *)
Lemma ahead_tail lo e q s : from (elem_syms e ++ seq_syms q) lo ->
  ahead_q lo (SCons e q) s -> ahead_q (lo + length (elem_syms e)) q s.
Proof.
  intros F H p a s' E R. apply from_app in F as [Fe Fq]. destruct (H p a s' E) as (S1 & N & RP).
  { cbn [seq_syms]. rewrite app_length. lia. }
  destruct S1 as (a1 & w & v & S1). inversion S1 as [|? ? x1 x2 v1 v2 A B X Y]; subst. destruct x1 as [|[px ax] x1].
  - cbn [app] in Y. subst x2. cbn [nul_q rp_q] in N, RP. rewrite (val_e_nullable _ _ A) in N, RP. cbn [andb] in N, RP.
    apply orb_false_iff in RP as [_ RP]. split; [|auto]. now exists a1, w, v2.
  - injection Y as -> -> _. pose proof (val_e_inside _ _ _ _ A Fe p a1 ltac:(now left)). lia.
Qed.

Lemma nul_b_false b k q : nul_b b = false -> branch b k = Some q -> nul_q q = false.
Proof.
  revert k. induction b as [q0|q0 b IH]; intros [|k]; cbn [nul_b branch]; intros H E; try discriminate.
  - now injection E as ->.
  - injection E as ->. now apply orb_false_iff in H.
  - apply orb_false_iff in H as [_ H]. now apply (IH k).
Qed.
Lemma rp_b_false b k q : rp_b b = false -> branch b k = Some q -> rp_q q = false.
Proof.
  revert k. induction b as [q0|q0 b IH]; intros [|k]; cbn [rp_b branch]; intros H E; try discriminate.
  - now injection E as ->.
  - injection E as ->. now apply orb_false_iff in H.
  - apply orb_false_iff in H as [_ H]. now apply (IH k).
Qed.

Lemma from_inj l a b : from l a -> from l b -> l <> [] -> a = b.
Proof. unfold from. intros -> H N. destruct l as [|x l]; [now destruct N|]. cbn [length List.seq] in H. now injection H. Qed.

(* the branch that a position belongs to *)
Lemma branch_at b lo k q l p : from (branches_syms b) lo -> branch b k = Some q -> from (seq_syms q) l ->
  l <= p < l + length (seq_syms q) ->
  lo <= p < lo + length (branches_syms b) /\
  forall k2 q2 l2, branch b k2 = Some q2 -> from (seq_syms q2) l2 -> l2 <= p < l2 + length (seq_syms q2) -> k2 = k.
Proof.
  intros F E Fl R.
  assert (NE : forall l p (q : tseq), l <= p < l + length (seq_syms q) -> seq_syms q <> []).
  { intros x y z Hr Hz. rewrite Hz in Hr. cbn in Hr. lia. }
  split.
  - destruct (branch_range b lo F k q E) as (l' & A & B & C). rewrite (from_inj _ _ _ Fl C) in R by (eapply NE; eassumption). lia.
  - intros k2 q2 l2 E2 F2 R2. destruct (Nat.lt_trichotomy k2 k) as [L|[L|L]]; [exfalso|exact L|exfalso].
    + destruct (branch_ranges b lo F k2 k q2 q L E2 E) as (x & y & _ & B & _ & X & Y).
      rewrite (from_inj _ _ _ Fl Y) in R by (eapply NE; eassumption). rewrite (from_inj _ _ _ F2 X) in R2 by (eapply NE; eassumption). lia.
    + destruct (branch_ranges b lo F k k2 q q2 L E E2) as (x & y & _ & B & _ & X & Y).
      rewrite (from_inj _ _ _ Fl X) in R by (eapply NE; eassumption). rewrite (from_inj _ _ _ F2 Y) in R2 by (eapply NE; eassumption). lia.
Qed.

Lemma det :
  (forall e lo, from (elem_syms e) lo -> ok_e e = true -> forall w w' s s' v v', val_elem e w v -> val_elem e w' v' ->
    w ++ s = w' ++ s' -> ahead_e lo e s -> ahead_e lo e s' -> w = w' /\ v = v') /\
  (forall q lo, from (seq_syms q) lo -> ok_q q = true -> forall w w' s s' v v', val_seq q w v -> val_seq q w' v' ->
    w ++ s = w' ++ s' -> ahead_q lo q s -> ahead_q lo q s' -> w = w' /\ v = v') /\
  (forall b lo, from (branches_syms b) lo -> ok_b b = true -> forall k q, branch b k = Some q ->
    forall w w' s s' v v', val_seq q w v -> val_seq q w' v' -> w ++ s = w' ++ s' ->
    (forall l, from (seq_syms q) l -> ahead_q l q s) -> (forall l, from (seq_syms q) l -> ahead_q l q s') -> w = w' /\ v = v').
Proof.
  apply tree_ind; cbn [elem_syms seq_syms branches_syms ok_e ok_q ok_b].
  - intros i sy lo F _ w w' s s' v v' H H' E _ _. inversion H; inversion H'; subst. cbn [app] in E. injection E as <- _. auto.
  - intros q IH lo F O w w' s s' v v' H H' E A A'. apply andb_true_iff in O as [O N]. apply negb_true_iff in N.
    assert (Out : forall s, ahead_e lo (EOpt q) s -> ahead_q lo q s).
    { intros z Hz. apply ahead_out. intros p a t Ez R. destruct (Hz p a t Ez R) as (_ & X & _). discriminate. }
    assert (NE : forall x t y, val_seq q x t -> ahead_e lo (EOpt q) (x ++ y) -> False).
    { intros x t y V Hx. destruct x as [|[p a] x].
      - apply val_nullable in V. congruence.
      - destruct (Hx p a (x ++ y) eq_refl) as (_ & X & _); [exact (val_inside _ _ _ _ V F p a ltac:(now left))|discriminate]. }
    inversion H as [|?|? ? x V| |]; inversion H' as [|?|? ? x' V'| |]; subst.
    + auto.
    + cbn [app] in E. subst s. exfalso. now apply (NE w' x' s').
    + cbn [app] in E. subst s'. exfalso. now apply (NE w x s).
    + destruct (IH lo F O w w' s s' x x' V V' E) as [-> ->]; auto.
  - intros q IH lo F O w w' s s' v v' H H' E A A'. apply andb_true_iff in O as [O R]. apply andb_true_iff in O as [O N].
    apply negb_true_iff in N, R. inversion H as [| | |? ? x V|]; inversion H' as [| | |? ? x' V'|]; subst.
    assert (Out : forall s, ahead_e lo (ERep q) s -> forall p a t, s = (p, a) :: t -> ~ lo <= p < lo + length (seq_syms q)).
    { intros z Hz p a t Ez Rz. destruct (Hz p a t Ez Rz) as (_ & _ & X). discriminate. }
    assert (In1 : forall x t y, val_reps q x t -> ahead_q lo q (x ++ y)).
    { intros z t y V1. inversion V1 as [? ? v1 V2|? w1 w2 v1 vs V2 V3]; subst.
      - destruct z as [|[p a] z]; [apply val_nullable in V2; congruence|]. intros p' a' t Et Rt. injection Et as <- <- <-.
        split; [now exists a, z, v1|auto].
      - destruct w1 as [|[p a] w1]; [apply val_nullable in V2; congruence|]. intros p' a' t Et Rt. injection Et as <- <- <-.
        split; [now exists a, w1, v1|auto]. }
    assert (In2 : forall x t y, val_reps q x t -> ahead_e lo (ERep q) (x ++ y) -> False).
    { intros z t y V1 Hz. destruct z as [|[p a] z].
      - apply val_matches in V1 as (u & M & Eu). destruct u; [|discriminate]. assert (M2 := m_rep_nil q [] M eq_refl). apply nul_q_iff in M2. congruence.
      - apply (Out _ Hz p a (z ++ y) eq_refl). exact (val_r_inside _ _ _ _ V1 F p a ltac:(now left)). }
    assert (Outq : forall s, ahead_e lo (ERep q) s -> ahead_q lo q s).
    { intros z Hz. apply ahead_out. now apply Out. }
    enough (G : w = w' /\ x = x') by (destruct G; subst; auto).
    clear H H'. revert w' s' x' V' E A'. induction V as [q w v V|q w1 w2 v vs V V2 IHV]; intros w' s' x' V' E A'.
    + inversion V' as [? ? v1 U1|? y1 y2 v1 vs1 U1 U2]; subst.
      * destruct (IH lo F O w w' s s' v v1 V U1 E) as [-> ->]; auto.
      * rewrite <- app_assoc in E. destruct (IH lo F O w y1 s (y2 ++ s') v v1 V U1 E) as [-> ->]; [auto|now apply (In1 y2 vs1)|].
        apply app_inv_head in E. subst s. exfalso. now apply (In2 y2 vs1 s').
    + rewrite <- app_assoc in E. inversion V' as [? ? v1 U1|? y1 y2 v1 vs1 U1 U2]; subst.
      * destruct (IH lo F O w1 w' (w2 ++ s) s' v v1 V U1 E) as [-> ->]; [now apply (In1 w2 vs)|auto|].
        apply app_inv_head in E. subst s'. exfalso. now apply (In2 w2 vs s).
      * rewrite <- app_assoc in E. destruct (IH lo F O w1 y1 (w2 ++ s) (y2 ++ s') v v1 V U1 E) as [-> ->]; [now apply (In1 w2 vs)|now apply (In1 y2 vs1)|].
        apply app_inv_head in E. destruct (IHV IH F O N R A Out In1 In2 Outq y2 s' vs1 U2 E A') as [-> ->]. auto.
  - intros b IH lo F O w w' s s' v v' H H' E A A'. apply andb_true_iff in O as [O M]. apply negb_true_iff in M.
    inversion H as [| | | |? k q ? x Eb V]; inversion H' as [| | | |? k' q' ? x' Eb' V']; subst.
    assert (K : k = k').
    { assert (D : forall i j qi qj wi wj si sj vi vj, i < j -> branch b i = Some qi -> branch b j = Some qj ->
        val_seq qi wi vi -> val_seq qj wj vj -> wi ++ si = wj ++ sj -> ahead_e lo (EAlt b) si -> ahead_e lo (EAlt b) sj -> False).
      { clear - F M. intros i j qi qj wi wj si sj vi vj L Ei Ej Vi Vj E Ai Aj.
        destruct (branch_ranges b lo F i j qi qj L Ei Ej) as (li & lj & R1 & R2 & R3 & Fi & Fj).
        assert (Nul : forall k q v, branch b k = Some q -> val_seq q [] v -> nul_b b = true).
        { intros k q v Ek Vk. apply nul_b_iff. exists k, q. split; [exact Ek|]. apply nul_q_iff. now apply (val_nullable q v). }
        destruct wi as [|[p a] wi], wj as [|[p' a'] wj].
        - rewrite (proj2 (multi_iff b)) in M; [discriminate|]. exists i, j, qi, qj. split; [exact L|]. split; [exact Ei|]. split; [exact Ej|].
          split; apply nul_q_iff; eapply val_nullable; eassumption.
        - cbn [app] in E. subst si. pose proof (val_inside _ _ _ _ Vj Fj p' a' ltac:(now left)).
          destruct (Ai p' a' _ eq_refl) as (_ & X & _); [cbn [elem_syms]; lia|]. cbn [nul_e] in X. rewrite (Nul i qi vi Ei Vi) in X. discriminate.
        - cbn [app] in E. subst sj. pose proof (val_inside _ _ _ _ Vi Fi p a ltac:(now left)).
          destruct (Aj p a _ eq_refl) as (_ & X & _); [cbn [elem_syms]; lia|]. cbn [nul_e] in X. rewrite (Nul j qj vj Ej Vj) in X. discriminate.
        - cbn [app] in E. injection E as <- _ _. pose proof (val_inside _ _ _ _ Vj Fj p a' ltac:(now left)).
          pose proof (val_inside _ _ _ _ Vi Fi p a ltac:(now left)). lia. }
      destruct (Nat.lt_trichotomy k k') as [L|[L|L]]; [exfalso|exact L|exfalso].
      - exact (D k k' q q' w w' s s' x x' L Eb Eb' V V' E A A').
      - exact (D k' k q' q w' w s' s x' x L Eb' Eb V' V (eq_sym E) A' A). }
    subst k'. rewrite Eb in Eb'. injection Eb' as <-.
    assert (Ah : forall s, ahead_e lo (EAlt b) s -> val_seq q w x -> forall l, from (seq_syms q) l -> ahead_q l q s).
    { clear - F Eb. intros s Hs V l Fl p a s' Es R. destruct (branch_at b lo k q l p F Eb Fl R) as [R2 U].
      destruct (Hs p a s' Es R2) as ((a1 & z & vz & S1) & N & RP). cbn [nul_e rp_e] in N, RP.
      inversion S1 as [| | | |? k2 q2 ? x2 Eb2 V2]; subst.
      destruct (branch_range b lo F k2 q2 Eb2) as (l2 & _ & _ & F2).
      rewrite (U k2 q2 l2 Eb2 F2 (val_inside _ _ _ _ V2 F2 p a1 ltac:(now left))) in Eb2. rewrite Eb in Eb2. injection Eb2 as <-.
      split; [now exists a1, z, x2|]. split; [eapply nul_b_false; eassumption|eapply rp_b_false; eassumption]. }
    destruct (IH lo F O k q Eb w w' s s' x x' V V' E) as [-> ->]; auto.
  - intros lo F _ w w' s s' v v' H H' E A A'. inversion H; inversion H'; subst. auto.
  - intros e IHe q IHq lo F O w w' s s' v v' H H' E A A'. apply andb_true_iff in O as [O1 O2].
    inversion H as [|? ? w1 w2 v1 v2 V1 V2]; inversion H' as [|? ? w1' w2' v1' v2' V1' V2']; subst.
    rewrite <- !app_assoc in E. pose proof F as F0. apply from_app in F0 as [Fe Fq].
    destruct (IHe lo Fe O1 w1 w1' (w2 ++ s) (w2' ++ s') v1 v1' V1 V1' E) as [-> ->];
      [now apply (ahead_head lo e q w2 v2)|now apply (ahead_head lo e q w2' v2')|].
    apply app_inv_head in E.
    destruct (IHq _ Fq O2 w2 w2' s s' v2 v2' V2 V2' E) as [-> ->]; [now apply (ahead_tail lo e)|now apply (ahead_tail lo e)|auto].
  - intros q IH lo F O [|k] q' Eb w w' s s' v v' V V' E A A'; cbn [branch] in Eb; [|discriminate]. injection Eb as ->.
    apply (IH lo F O w w' s s'); auto.
  - intros q IHq b IHb lo F O [|k] q' Eb w w' s s' v v' V V' E A A'; cbn [branch] in Eb;
      apply from_app in F as [Fq Fb]; apply andb_true_iff in O as [O1 O2].
    + injection Eb as ->. apply (IHq lo Fq O1 w w' s s'); auto.
    + apply (IHb _ Fb O2 k q' Eb w w' s s'); auto.
Qed.

Theorem unique_value q w v v' : numbered q -> ok_q q = true -> val_seq q w v -> val_seq q w v' -> v = v'.
Proof.
  intros N O V V'. apply (proj1 (proj2 det) q 0 N O w w [] [] v v' V V' eq_refl); intros p a s' H; discriminate.
Qed.

(* ---- a broken rule leads to ambiguity ---- *)

Definition twofold_e (e : telem) (u : list nat) : Prop :=
  forall w, map fst w = u -> exists v v', val_elem e w v /\ val_elem e w v' /\ v <> v'.
Definition twofold_q (q : tseq) (u : list nat) : Prop :=
  forall w, map fst w = u -> exists v v', val_seq q w v /\ val_seq q w v' /\ v <> v'.

Lemma split_pos (w : list (nat * nat)) u1 u2 : map fst w = u1 ++ u2 -> exists w1 w2, w = w1 ++ w2 /\ map fst w1 = u1 /\ map fst w2 = u2.
Proof.
  intros H. exists (firstn (length u1) w), (skipn (length u1) w). rewrite firstn_skipn. split; [reflexivity|].
  rewrite <- firstn_map, <- skipn_map, H, firstn_app, skipn_app, firstn_all, skipn_all, Nat.sub_diag, firstn_O, app_nil_r.
  cbn [app skipn]. auto.
Qed.

Lemma pos_val q : exists u, forall w, map fst w = u -> exists v, val_seq q w v.
Proof.
  destruct (proj1 (proj2 some_word) q) as (w0 & M). exists (map fst w0). intros w E. now apply (seq_val q w0).
Qed.
Lemma pos_val_e e : exists u, forall w, map fst w = u -> exists v, val_elem e w v.
Proof.
  destruct (proj1 some_word e) as (w0 & M). exists (map fst w0). intros w E. now apply (proj1 matches_val e w0).
Qed.
Lemma null_val q : nullable q -> exists v, val_seq q [] v.
Proof. intros H. now apply (seq_val q []). Qed.

Lemma flaw_twofold m :
  (forall e, flaw_elem m e -> exists u, twofold_e e u) /\ (forall q, flaw_seq m q -> exists u, twofold_q q u).
Proof.
  set (P := fun e (_ : flaw_elem m e) => exists u, twofold_e e u).
  set (Q := fun q (_ : flaw_seq m q) => exists u, twofold_q q u).
  cut ((forall e (H : flaw_elem m e), P e H) /\ (forall q (H : flaw_seq m q), Q q H)).
  { unfold P, Q. intros (A & B). split; intros; eauto. }
  apply flaw_ind; unfold P, Q; clear P Q.
  - intros q _ N. exists []. intros [|x w] E; [|discriminate]. destruct (null_val q N) as (v & V).
    exists VAbsent, (VPresent v). split; [constructor|]. split; [now constructor|discriminate].
  - intros q _ N. exists []. intros [|x w] E; [|discriminate]. destruct (null_val q N) as (v & V).
    exists (VRep [v]), (VRep [v; v]). split; [apply val_rep; now apply val_last|]. split; [|discriminate].
    apply val_rep. apply (val_more q [] []); [exact V|now apply val_last].
  - intros q _ (w0 & _ & R). pose proof (R 0) as R1. pose proof (R 1) as R2. cbn [repeat concat] in R1, R2. rewrite app_nil_r in R1, R2.
    exists (map fst w0 ++ map fst w0). intros w E. pose proof E as E2. rewrite <- map_app in E2.
    destruct (seq_val q (w0 ++ w0) w R2 (eq_sym E2)) as (v & V).
    apply split_pos in E as (w1 & w2 & -> & E1 & E3).
    destruct (seq_val q w0 w1 R1 (eq_sym E1)) as (v1 & V1), (seq_val q w0 w2 R1 (eq_sym E3)) as (v2 & V2).
    exists (VRep [v]), (VRep [v1; v2]). split; [apply val_rep; now apply val_last|]. split; [|discriminate].
    apply val_rep. apply val_more; [exact V1|now apply val_last].
  - intros b i j qi qj _ L Ei Ej Ni Nj. exists []. intros [|x w] E; [|discriminate].
    destruct (null_val qi Ni) as (v & V), (null_val qj Nj) as (v' & V').
    exists (VAlt i v), (VAlt j v'). split; [now apply (val_alt b i qi)|]. split; [now apply (val_alt b j qj)|].
    intros H. injection H. lia.
  - intros q _ (u & T). exists u. intros w E. destruct (T w E) as (v & v' & V & V' & N).
    exists (VPresent v), (VPresent v'). split; [now constructor|]. split; [now constructor|congruence].
  - intros q _ (u & T). exists u. intros w E. destruct (T w E) as (v & v' & V & V' & N).
    exists (VRep [v]), (VRep [v']). split; [apply val_rep; now apply val_last|]. split; [apply val_rep; now apply val_last|congruence].
  - intros b i q Eb _ (u & T). exists u. intros w E. destruct (T w E) as (v & v' & V & V' & N).
    exists (VAlt i v), (VAlt i v'). split; [now apply (val_alt b i q)|]. split; [now apply (val_alt b i q)|congruence].
  - intros e q _ (u & T). destruct (pos_val q) as (u2 & T2). exists (u ++ u2). intros w E.
    apply split_pos in E as (w1 & w2 & -> & E1 & E2). destruct (T w1 E1) as (v & v' & V & V' & N), (T2 w2 E2) as (x & X).
    exists (v :: x), (v' :: x). split; [now constructor|]. split; [now constructor|congruence].
  - intros e q _ (u & T). destruct (pos_val_e e) as (u2 & T2). exists (u2 ++ u). intros w E.
    apply split_pos in E as (w1 & w2 & -> & E1 & E2). destruct (T w2 E2) as (v & v' & V & V' & N), (T2 w1 E1) as (x & X).
    exists (x :: v), (x :: v'). split; [now constructor|]. split; [now constructor|congruence].
Qed.

Lemma ambiguous_iff q : numbered q -> ((exists m, flaw_seq m q) <-> ambiguous q).
Proof.
  intros N. split.
  - intros (m & F). destruct (proj2 (flaw_twofold m) q F) as (u & T).
    destruct (T (map (fun p => (p, 0)) u)) as (v & v' & V); [rewrite map_map; apply map_id|].
    exists (map (fun p => (p, 0)) u), v, v'. exact V.
  - intros (w & v & v' & V & V' & D). destruct (ok_q q) eqn:O.
    + destruct D. now apply (unique_value q w).
    + exact (proj1 (proj2 not_ok_flaw) q O).
Qed.
