(* The descriptions that are generated from matches. *)
From Coq Require Import List Arith Bool Lia.
From Verif Require Import CliPatternModel CliPatternSpec CliTreeProofs CliSpecModel CliRecorderModel CliRecorderSpec CliAmbigProofs CliValueProofs
  CliArgsModel CliArgsSpec ArrLib.
Import ListNotations.

(* every construct contains a symbol *)
Fixpoint pop_e (e : telem) : bool :=
  match e with ESym _ _ => true | EOpt q | ERep q => pop_q q && negb (length (seq_syms q) =? 0) | EAlt b => pop_b b end
with pop_q (q : tseq) : bool := match q with SNil => true | SCons e q => pop_e e && pop_q q end
with pop_b (b : tbranches) : bool :=
  match b with
  | BOne q => pop_q q && negb (length (seq_syms q) =? 0)
  | BCons q b => pop_q q && negb (length (seq_syms q) =? 0) && pop_b b
  end.

Lemma pop_syms : (forall e, pop_e e = true -> elem_syms e <> []) /\ (forall b, pop_b b = true -> branches_syms b <> []).
Proof.
  assert (B : forall b, pop_b b = true -> branches_syms b <> []).
  { destruct b as [q|q b]; cbn [pop_b branches_syms]; rewrite ?andb_true_iff, negb_true_iff, Nat.eqb_neq.
    - intros [_ H] E. rewrite E in H. now apply H.
    - intros [[_ H] _] E. apply app_eq_nil in E as [E _]. rewrite E in H. now apply H. }
  split; [|exact B].
  destruct e as [i s|q|q|b]; cbn [pop_e elem_syms]; rewrite ?andb_true_iff, ?negb_true_iff, ?Nat.eqb_neq; try discriminate.
  - intros [_ H] E. rewrite E in H. now apply H.
  - intros [_ H] E. rewrite E in H. now apply H.
  - apply B.
Qed.

Lemma pop_branch b k q : pop_b b = true -> branch b k = Some q -> pop_q q = true /\ seq_syms q <> [].
Proof.
  revert k. induction b as [q0|q0 b IH]; intros [|k]; cbn [pop_b branch]; rewrite ?andb_true_iff, ?negb_true_iff, ?Nat.eqb_neq; intros H E; try discriminate.
  - injection E as <-. destruct H as [A B]. split; [exact A|]. intros X. now rewrite X in B.
  - injection E as <-. destruct H as [[A B] _]. split; [exact A|]. intros X. now rewrite X in B.
  - destruct H as [_ H]. now apply (IH k).
Qed.

Lemma from_end l lo p : from l lo -> l <> [] -> one_beyond l p -> p = lo + length l.
Proof.
  unfold one_beyond. intros F N. destruct (rev l) as [|[i s] r] eqn:E.
  - apply (f_equal (@rev _)) in E. rewrite rev_involutive in E. now destruct N.
  - apply (f_equal (@rev _)) in E. rewrite rev_involutive in E. cbn [rev] in E. subst l. apply from_app in F as [_ F].
    unfold from in F. cbn in F. injection F as ->. rewrite app_length. cbn [length]. lia.
Qed.

(* ---- what comes next, when the lower end of the range is not exact ---- *)

Definition aheadB (B lo hi : nat) (starts : nat -> Prop) (nul rp : bool) (s : list (nat * nat)) : Prop :=
  forall p a s', s = (p, a) :: s' -> B <= p < hi -> (p < lo \/ starts p) /\ nul = false /\ rp = false.

Definition aheadB_e B lo e s := aheadB B lo (lo + length (elem_syms e)) (starts_e e) (nul_e e) (rp_e e) s.
Definition aheadB_q B lo q s := aheadB B lo (lo + length (seq_syms q)) (starts_q q) (nul_q q) (rp_q q) s.

Lemma aheadB_out B lo hi P n r s : (forall p a s', s = (p, a) :: s' -> ~ B <= p < hi) -> aheadB B lo hi P n r s.
Proof. intros H p a s' E R. exfalso. now apply (H p a s' E). Qed.

Lemma aheadB_head B lo e q w2 vs s : from (elem_syms e ++ seq_syms q) lo ->
  aheadB_q B lo (SCons e q) s -> val_seq q w2 vs -> aheadB_e B lo e (w2 ++ s).
Proof.
  intros F H V p a s' E R. apply from_app in F as [Fe Fq]. destruct w2 as [|[p2 a2] w2].
  - cbn [app] in E. destruct (H p a s' E) as (S1 & N & RP).
    { cbn [seq_syms]. rewrite app_length. lia. }
    cbn [nul_q rp_q] in N, RP. rewrite (val_nullable q vs V) in N, RP. rewrite andb_true_r in N. rewrite andb_true_r in RP.
    apply orb_false_iff in RP as [RP _]. split; [|auto]. destruct S1 as [S1|S1]; [now left|]. right.
    destruct S1 as (a1 & w & v & S1). inversion S1 as [|? ? x1 x2 v1 v2 A B1 X Y]; subst. destruct x1 as [|[px ax] x1].
    + cbn [app] in Y. subst x2. pose proof (val_inside _ _ _ _ B1 Fq p a1 ltac:(now left)). lia.
    + injection Y as -> -> _. now exists a1, x1, v1.
  - cbn [app] in E. injection E as <- <- _. pose proof (val_inside _ _ _ _ V Fq p2 a2 ltac:(now left)). lia.
Qed.

Lemma aheadB_tail B lo e q s : from (elem_syms e ++ seq_syms q) lo -> B <= lo ->
  aheadB_q B lo (SCons e q) s -> aheadB_q (lo + length (elem_syms e)) (lo + length (elem_syms e)) q s.
Proof.
  intros F LB H p a s' E R. apply from_app in F as [Fe Fq]. destruct (H p a s' E) as (S1 & N & RP).
  { cbn [seq_syms]. rewrite app_length. lia. }
  destruct S1 as [S1|S1]; [lia|].
  destruct S1 as (a1 & w & v & S1). inversion S1 as [|? ? x1 x2 v1 v2 A B1 X Y]; subst. destruct x1 as [|[px ax] x1].
  - cbn [app] in Y. subst x2. cbn [nul_q rp_q] in N, RP. rewrite (val_e_nullable _ _ A) in N, RP. cbn [andb] in N, RP.
    apply orb_false_iff in RP as [_ RP]. split; [|auto]. right. now exists a1, w, v2.
  - injection Y as -> -> _. pose proof (val_e_inside _ _ _ _ A Fe p a1 ltac:(now left)). lia.
Qed.

(* ---- the loop ---- *)

Section Run.
  Variable st : structure.
  Variable mps : list match_pos.

  Lemma loop_S n f stack mi mp ds : descs_loop st (S n) mps f stack mi mp ds =
    (if f_elem_index f <? q_num_elems (f_seq f) then
        let? e := nth_error (ps_elems st) (q_elems_offset (f_seq f) + f_elem_index f) in
        match e_type e with
        | t_sym =>
          if pos_in_range mp f e then
            let descs := if e_is_param e then ds ++ [Desc e (snd mp)] else ds in
            let f := next_elem f e in
            let mi := S mi in
            let? mp := nth_error mps mi in
            descs_loop st n mps f stack mi mp descs
          else None
        | t_opt =>
          if negb (pos_in_range mp f e) then descs_loop st n mps (next_elem f e) stack mi mp (ds ++ [Desc e 0])
          else
            let? f2 := enter_subseq st f e in
            descs_loop st n mps f2 (f :: stack) mi mp (ds ++ [Desc e 1])
        | t_rep =>
          if pos_in_range mp f e then
            let f := Dframe (f_seq f) (f_elem_index f) (f_begin_pos f) (length ds) in
            let? f2 := enter_subseq st f e in
            descs_loop st n mps f2 (f :: stack) mi mp (ds ++ [Desc e 1])
          else None
        | t_alt =>
          let? a := nth_error (ps_alts st) (e_index e) in
          let? branch_index :=
            (if negb (pos_in_range mp f e) then
               if a_nullable_seq_index a <? a_num_seqs a then Some (a_nullable_seq_index a) else None
             else find_branch st (a_num_seqs a) (a_seqs_offset a) 0 (fst mp)) in
          if branch_index <? a_num_seqs a then
            let? f2 := enter_seq st f (a_seqs_offset a + branch_index) in
            descs_loop st n mps f2 (f :: stack) mi mp (ds ++ [Desc e branch_index])
          else None
        end
      else
        match stack with
        | f :: stack =>
          let? e := nth_error (ps_elems st) (q_elems_offset (f_seq f) + f_elem_index f) in
          match e_type e with
          | t_sym => None
          | t_rep =>
            if pos_in_range mp f e then
              let? descs := bump ds (f_desc_index f) in
              let? f2 := enter_subseq st f e in
              descs_loop st n mps f2 (f :: stack) mi mp descs
            else descs_loop st n mps (next_elem f e) stack mi mp ds
          | t_opt | t_alt => descs_loop st n mps (next_elem f e) stack mi mp ds
          end
        | [] => if S mi =? length mps then Some ds else None
        end).
  Proof. reflexivity. Qed.

  (* the positions from an index *)
  Definition rest (mi : nat) (w : list match_pos) : Prop := skipn mi mps = w.

  Lemma rest_app mi w s : rest mi (w ++ s) -> rest (mi + length w) s.
  Proof.
    unfold rest. intros H. assert (E : forall (l : list match_pos) n m, skipn m (skipn n l) = skipn (n + m) l).
    { induction l as [|x l IH]; intros [|n] m; cbn [skipn Nat.add]; auto. now rewrite skipn_nil. }
    rewrite <- E, H, skipn_app, skipn_all, Nat.sub_diag. reflexivity.
  Qed.
  Lemma rest_nth mi p s : rest mi (p :: s) -> nth_error mps mi = Some p.
  Proof.
    unfold rest. intros H. revert mi H. clear st. induction mps as [|x l IH]; intros [|mi] H; cbn [skipn nth_error] in *; try discriminate.
    - now injection H as ->.
    - now apply IH.
  Qed.

  (* one state leads to another one *)
  Definition leads f stack mi mp ds f' stack' mi' mp' ds' : Prop :=
    exists c, forall n, descs_loop st (c + n) mps f stack mi mp ds = descs_loop st n mps f' stack' mi' mp' ds'.

  Lemma leads_refl f stack mi mp ds : leads f stack mi mp ds f stack mi mp ds.
  Proof. exists 0. reflexivity. Qed.
  Lemma leads_trans f1 s1 m1 p1 d1 f2 s2 m2 p2 d2 f3 s3 m3 p3 d3 :
    leads f1 s1 m1 p1 d1 f2 s2 m2 p2 d2 -> leads f2 s2 m2 p2 d2 f3 s3 m3 p3 d3 -> leads f1 s1 m1 p1 d1 f3 s3 m3 p3 d3.
  Proof. intros [c1 H1] [c2 H2]. exists (c1 + c2). intros n. now rewrite <- Nat.add_assoc, H1, H2. Qed.

  (* the element is processed *)
  Definition runs_e (e : telem) (lo : nat) : Prop :=
    forall el w v s mp mp' t B f stack mi ds, full_elem st el e -> val_elem e w v ->
      rest mi (w ++ s) -> (exists t, w ++ s = mp :: t) -> s = mp' :: t -> aheadB_e B lo e s -> B <= lo -> f_begin_pos f = B ->
      f_elem_index f < q_num_elems (f_seq f) -> nth_error (ps_elems st) (q_elems_offset (f_seq f) + f_elem_index f) = Some el ->
      exists l ds' di, says_elem e v l /\ encodes st ds' l /\
        leads f stack mi mp ds (Dframe (f_seq f) (S (f_elem_index f)) (lo + length (elem_syms e)) di) stack (mi + length w) mp' (ds ++ ds').
  Definition runs_q (q : tseq) (lo : nat) : Prop :=
    forall w v s mp mp' t B f stack mi ds n, val_seq q w v ->
      rest mi (w ++ s) -> (exists t, w ++ s = mp :: t) -> s = mp' :: t -> aheadB_q B lo q s -> B <= lo -> f_begin_pos f = B ->
      full_elems st (q_elems_offset (f_seq f) + f_elem_index f) n q -> f_elem_index f + n = q_num_elems (f_seq f) ->
      exists l ds' di b, says_seq q v l /\ encodes st ds' l /\
        leads f stack mi mp ds (Dframe (f_seq f) (q_num_elems (f_seq f)) b di) stack (mi + length w) mp' (ds ++ ds').

  Lemma encodes_app a b l m : encodes st a l -> encodes st b m -> encodes st (a ++ b) (l ++ m).
  Proof. apply Forall2_app. Qed.

  Lemma val_first e w v lo s mp : val_elem e w v -> from (elem_syms e) lo -> nul_e e = false -> (exists t, w ++ s = mp :: t) ->
    lo <= fst mp < lo + length (elem_syms e).
  Proof.
    intros V F N (t & E). destruct w as [|[p a] w].
    - rewrite (val_e_nullable e v V) in N. discriminate.
    - injection E as <- _. exact (val_e_inside _ _ _ _ V F p a ltac:(now left)).
  Qed.

  Lemma in_range mp f e lo hi : f_begin_pos f <= lo -> e_end_pos e = hi -> lo <= fst mp < hi -> pos_in_range mp f e = true.
  Proof. intros H <- R. unfold pos_in_range. apply andb_true_iff. rewrite Nat.leb_le, Nat.ltb_lt. lia. Qed.
  Lemma out_of_range mp f e B hi : f_begin_pos f = B -> e_end_pos e = hi -> ~ B <= fst mp < hi -> pos_in_range mp f e = false.
  Proof. intros <- <- R. unfold pos_in_range. apply andb_false_iff. rewrite Nat.leb_gt, Nat.ltb_ge. lia. Qed.
  Lemma not_ahead B lo hi P n r mp s : aheadB B lo hi P n r s -> (n = true \/ r = true) -> (exists t, s = mp :: t) -> ~ B <= fst mp < hi.
  Proof.
    intros A C (t & ->) R. destruct mp as [p a]. destruct (A p a t eq_refl R) as (_ & N & Rp). destruct C; congruence.
  Qed.

  Lemma ltb_f f : f_elem_index f < q_num_elems (f_seq f) -> (f_elem_index f <? q_num_elems (f_seq f)) = true.
  Proof. now rewrite Nat.ltb_lt. Qed.

  (* the repetitions after the first, and the end of the last one *)
  Lemma run_reps q lo el (f : dframe) : runs_q q lo -> from (seq_syms q) lo -> nul_q q = false -> rp_q q = false ->
    full_elem st el (ERep q) -> e_end_pos el = lo + length (seq_syms q) -> f_begin_pos f <= lo ->
    nth_error (ps_elems st) (q_elems_offset (f_seq f) + f_elem_index f) = Some el ->
    forall w vs, val_reps q w vs -> forall s mp mp' t stack mi ds0 j ds1,
      rest mi (w ++ s) -> (exists t, w ++ s = mp :: t) -> s = mp' :: t -> ~ f_begin_pos f <= fst mp' < e_end_pos el ->
      f_desc_index f = length ds0 ->
      exists l ds' f2, says_reps q vs l /\ encodes st ds' l /\ enter_subseq st f el = Some f2 /\
        leads f2 (f :: stack) mi mp (ds0 ++ Desc el j :: ds1)
          (Dframe (f_seq f) (S (f_elem_index f)) (e_end_pos el) (f_desc_index f)) stack (mi + length w) mp'
          (ds0 ++ Desc el (j + (length vs - 1)) :: ds1 ++ ds').
  Proof.
    intros RQ F N RP Fe Ee LB En. assert (T : e_type el = t_rep /\ full_seq st (e_index el) q) by (inversion Fe; subst; auto). destruct T as [T FS].
    inversion FS as [? sq ? Es Fel _ _ _]; subst.
    assert (En2 : enter_subseq st f el = Some (Dframe sq 0 (f_begin_pos f) (f_desc_index f))).
    { unfold enter_subseq, enter_seq. rewrite T, Es. reflexivity. }
    induction 1 as [q w v V|q w1 w2 v vs V VR IH]; intros s mp mp' t stack mi ds0 j ds1 R H Hs Hp Hd.
    - destruct (RQ w v s mp mp' t (f_begin_pos f) (Dframe sq 0 (f_begin_pos f) (f_desc_index f)) (f :: stack) mi (ds0 ++ Desc el j :: ds1) (q_num_elems sq))
        as (l & ds' & di & b & Hl & Hds & L); auto.
      { apply aheadB_out. intros p a s' X Y. apply Hp. rewrite Hs in X. injection X as -> _. rewrite Ee. exact Y. }
      { cbn [f_seq f_elem_index]. now rewrite Nat.add_0_r. }
      exists (l ++ []), ds', (Dframe sq 0 (f_begin_pos f) (f_desc_index f)). split; [apply says_more; [exact Hl|constructor]|].
      split; [now rewrite app_nil_r|]. split; [exact En2|]. eapply leads_trans; [exact L|]. exists 1. intros n.
      cbn [Nat.add f_seq]. rewrite loop_S. cbn [f_seq f_elem_index]. rewrite Nat.ltb_irrefl. rewrite En. cbn [obind].
      rewrite T. rewrite (out_of_range _ _ _ _ _ eq_refl eq_refl Hp). cbn [length]. rewrite Nat.add_0_r, <- app_assoc. reflexivity.
    - rewrite <- app_assoc in R, H.
      assert (exists mp2 t2, w2 ++ s = mp2 :: t2 /\ lo <= fst mp2 < lo + length (seq_syms q)) as (mp2 & t2 & E2 & R2).
      { destruct w2 as [|[p a] w2].
        - apply val_matches in VR as (u & M & Eu). destruct u; [|discriminate]. assert (M2 := m_rep_nil q [] M eq_refl). apply nul_q_iff in M2. congruence.
        - exists (p, a), (w2 ++ s). split; [reflexivity|]. exact (val_r_inside _ _ _ _ VR F p a ltac:(now left)). }
      destruct (RQ w1 v (w2 ++ s) mp mp2 t2 (f_begin_pos f) (Dframe sq 0 (f_begin_pos f) (f_desc_index f)) (f :: stack) mi (ds0 ++ Desc el j :: ds1) (q_num_elems sq))
        as (l & ds' & di & b & Hl & Hds & L); auto.
      { intros p a s' X Y. split; [|auto]. right. rewrite E2 in X. destruct w2 as [|[p' a'] w2].
        - apply val_matches in VR as (u & M & Eu). destruct u; [|discriminate]. assert (M2 := m_rep_nil q [] M eq_refl). apply nul_q_iff in M2. congruence.
        - injection E2 as <- _. injection X as -> -> _. inversion VR as [? ? v1 V2|? x1 x2 v1 vs1 V2 V3 X1 X2]; subst.
          + now exists a, w2, v1.
          + destruct x1 as [|[p1 a1] x1]; [apply val_nullable in V2; congruence|]. injection X2 as -> -> _. now exists a, x1, v1. }
      { cbn [f_seq f_elem_index]. now rewrite Nat.add_0_r. }
      destruct (IH RQ F N RP Fe Ee FS Fel s mp2 mp' t stack (mi + length w1) ds0 (S j) (ds1 ++ ds')) as (l2 & ds2 & f2 & Hl2 & Hds2 & Ef2 & L2); auto.
      { now apply rest_app. }
      { now exists t2. }
      exists (l ++ l2), (ds' ++ ds2), f2. split; [now apply says_more|]. split; [now apply encodes_app|]. split; [exact Ef2|].
      assert (f2 = Dframe sq 0 (f_begin_pos f) (f_desc_index f)) by congruence. subst f2.
      eapply leads_trans; [exact L|]. eapply leads_trans; [|].
      2:{ rewrite app_length, Nat.add_assoc. 
          replace (j + (length (v :: vs) - 1)) with (S j + (length vs - 1)).
          2:{ cbn [length]. inversion VR; subst; cbn [length]; lia. }
          rewrite (app_assoc ds1 ds' ds2). exact L2. }
      exists 1. intros n. cbn [Nat.add f_seq]. rewrite loop_S. cbn [f_seq f_elem_index]. rewrite Nat.ltb_irrefl. rewrite En. cbn [obind].
      rewrite T. rewrite (in_range mp2 f el lo _ LB Ee R2).
      assert (Bm : bump ((ds0 ++ Desc el j :: ds1) ++ ds') (f_desc_index f) = Some (ds0 ++ Desc el (S j) :: ds1 ++ ds')).
      { unfold bump. rewrite Hd, <- app_assoc. cbn [app]. rewrite nth_error_app2, Nat.sub_diag by lia. cbn [nth_error obind d_elem d_value].
        clear. induction ds0 as [|x l IH]; cbn [app length set_nth]; [reflexivity|]. cbn [set_nth]. rewrite IH. reflexivity. }
      rewrite Bm. cbn [obind]. rewrite En2. cbn [obind]. reflexivity.
  Qed.

  Lemma find_branch_run b i0 nb lo j0 : full_branches st (i0 + j0) nb b -> from (branches_syms b) lo -> pop_b b = true ->
    forall k q l p, branch b k = Some q -> from (seq_syms q) l -> l <= p < l + length (seq_syms q) ->
    forall extra, find_branch st (nb + extra) i0 j0 p = Some (j0 + k).
  Proof.
    revert nb lo j0. induction b as [q0|q0 b IH]; intros nb lo j0 FB F P k q l p E Fl R extra.
    - inversion FB as [? ? FS|]; subst. destruct k; [|discriminate]. cbn [branch] in E. injection E as ->.
      inversion FS as [? sq ? Es _ _ OB _]; subst. cbn [Nat.add find_branch]. rewrite Es. cbn [obind].
      apply (from_end _ l) in OB; [|exact Fl|intros X; rewrite X in R; cbn in R; lia].
      rewrite (proj2 (Nat.leb_gt _ _)) by lia. now rewrite Nat.add_0_r.
    - inversion FB as [|? n ? ? FS FB2]; subst. cbn [branches_syms] in F. pose proof F as F0. apply from_app in F as [F1 F2].
      pose proof P as P0. cbn [pop_b] in P. apply andb_true_iff in P as [P PB]. inversion FS as [? sq ? Es _ _ OB _]; subst.
      assert (NE : seq_syms q0 <> []) by (eapply (pop_branch (BCons q0 b) 0); [exact P0|reflexivity]).
      cbn [Nat.add find_branch]. rewrite Es. cbn [obind]. apply (from_end _ lo) in OB; [|exact F1|exact NE].
      destruct k as [|k]; cbn [branch] in E.
      + injection E as <-. rewrite (from_inj _ _ _ Fl F1 NE) in R. rewrite (proj2 (Nat.leb_gt _ _)) by lia. now rewrite Nat.add_0_r.
      + destruct (branch_range b _ F2 k q E) as (l' & A & B & C).
        assert (l' = l) by (apply (from_inj (seq_syms q)); auto; intros X; rewrite X in R; cbn in R; lia). subst l'.
        rewrite (proj2 (Nat.leb_le _ _)) by lia. rewrite <- (Nat.add_succ_comm j0 k).
        rewrite <- Nat.add_succ_r in FB2. exact (IH n _ (S j0) FB2 F2 PB k q l p E Fl R extra).
  Qed.

  Lemma full_branch b i nb k q : full_branches st i nb b -> branch b k = Some q -> k < nb /\ full_seq st (i + k) q.
  Proof.
    revert i nb k. induction b as [q0|q0 b IH]; intros i nb [|k] FB E; inversion FB; subst; cbn [branch] in E; try discriminate.
    - injection E as ->. rewrite Nat.add_0_r. auto.
    - injection E as ->. rewrite Nat.add_0_r. split; [lia|auto].
    - destruct (IH _ _ _ H4 E) as [A B]. rewrite <- Nat.add_succ_comm. split; [lia|exact B].
  Qed.

  Lemma run :
    (forall e lo, from (elem_syms e) lo -> pop_e e = true -> ok_e e = true -> runs_e e lo) /\
    (forall q lo, from (seq_syms q) lo -> pop_q q = true -> ok_q q = true -> runs_q q lo) /\
    (forall b lo, from (branches_syms b) lo -> pop_b b = true -> ok_b b = true -> forall k q l, branch b k = Some q -> from (seq_syms q) l -> runs_q q l).
  Proof.
    apply tree_ind; cbn [elem_syms seq_syms branches_syms ok_e ok_q ok_b pop_e pop_q pop_b].
    - (* symbol *)
      intros i s lo F _ _ el w v r mp mp' t B f stack mi ds Fe V R (t0 & H) Hs A LB Hb Hi En.
      unfold from in F. cbn in F. injection F as ->. inversion V; subst. inversion Fe as [? ? ? T Es _ Ip Ep| | |]; subst. injection H as <- _.
      exists (if is_slot s then [(ESym lo s, a)] else []), (if is_slot s then [Desc el a] else []), (f_desc_index f).
      split; [destruct (is_slot s) eqn:X; now constructor|].
      split; [destruct (is_slot s); [apply Forall2_cons; [cbn; auto|]|]; constructor|].
      exists 1. intros n. cbn [Nat.add]. rewrite loop_S, (ltb_f f Hi), En. cbn [obind]. rewrite T.
      rewrite (in_range (lo, a) f el lo (S lo)); [|lia|exact Ep|cbn; lia]. cbn zeta.
      assert (R2 : rest (S mi) (mp' :: t)) by (apply (rest_app mi [(lo, a)]) in R; now rewrite Nat.add_1_r in R).
      rewrite (rest_nth _ _ _ R2). cbn [obind snd length]. rewrite Ip. unfold next_elem. rewrite Ep, !Nat.add_1_r.
      destruct (is_slot s); [reflexivity|now rewrite app_nil_r].
    - (* optional *)
      intros q IH lo F P O el w v r mp mp' t B f stack mi ds Fe V R H Hs A LB Hb Hi En.
      apply andb_true_iff in O as [O N]. apply andb_true_iff in P as [P NE]. apply negb_true_iff in N, NE. apply Nat.eqb_neq in NE.
      assert (Q : e_type el = t_opt /\ full_seq st (e_index el) q /\ e_end_pos el = lo + length (seq_syms q)).
      { inversion Fe; subst. split; [auto|]. split; [auto|]. apply from_end; auto. intros X. now rewrite X in NE. }
      destruct Q as (T & FS & Ep).
      assert (Out : ~ B <= fst mp' < lo + length (seq_syms q)).
      { eapply not_ahead; [exact A|now left|now exists t]. }
      inversion V as [|?|? ? x Vx| |]; subst.
      + destruct H as (t0 & H). injection H as <- _. exists [(EOpt q, 0)], [Desc el 0], (f_desc_index f).
        split; [constructor|]. split; [constructor; [cbn; auto|constructor]|]. exists 1. intros n. cbn [Nat.add].
        rewrite loop_S, (ltb_f f Hi), En. cbn [obind]. rewrite T. rewrite (out_of_range mp' f el _ _ eq_refl Ep Out). cbn [negb length].
        unfold next_elem. now rewrite Ep, Nat.add_0_r.
      + inversion FS as [? sq ? Es Fel _ _ _]; subst.
        assert (R1 : lo <= fst mp < lo + length (seq_syms q)).
        { destruct w as [|[p a] w]; [apply val_nullable in Vx; congruence|]. destruct H as (t0 & H). injection H as <- _.
          exact (val_inside _ _ _ _ Vx F p a ltac:(now left)). }
        destruct (IH lo F P O w x _ mp mp' t (f_begin_pos f) (Dframe sq 0 (f_begin_pos f) (f_desc_index f)) (f :: stack) mi (ds ++ [Desc el 1]) (q_num_elems sq) Vx R H eq_refl)
          as (l & ds' & di & b & Hl & Hds & L); auto.
        { apply aheadB_out. intros p a s' X Y. injection X as -> _. now apply Out. }
        { cbn [f_seq f_elem_index]. now rewrite Nat.add_0_r. }
        exists ((EOpt q, 1) :: l), (Desc el 1 :: ds'), (f_desc_index f). split; [now constructor|].
        split; [constructor; [cbn; auto|exact Hds]|].
        eapply leads_trans; [|eapply leads_trans; [exact L|]].
        * exists 1. intros n. cbn [Nat.add]. rewrite loop_S, (ltb_f f Hi), En. cbn [obind]. rewrite T. rewrite (in_range mp f el lo _ LB Ep R1).
          cbn [negb]. unfold enter_subseq, enter_seq. rewrite T, Es. reflexivity.
        * exists 1. intros n. cbn [Nat.add f_seq]. rewrite loop_S. cbn [f_seq f_elem_index]. rewrite Nat.ltb_irrefl, En. cbn [obind]. rewrite T.
          unfold next_elem. rewrite Ep, <- app_assoc. reflexivity.
    - (* repetition *)
      intros q IH lo F P O el w v r mp mp' t B f stack mi ds Fe V R H Hs A LB Hb Hi En.
      apply andb_true_iff in O as [O RP]. apply andb_true_iff in O as [O N]. apply andb_true_iff in P as [P NE]. apply negb_true_iff in N, NE, RP. apply Nat.eqb_neq in NE.
      assert (Q : e_type el = t_rep /\ e_end_pos el = lo + length (seq_syms q)).
      { inversion Fe; subst. split; [auto|]. apply from_end; auto. intros X. now rewrite X in NE. }
      destruct Q as (T & Ep).
      assert (Out : ~ f_begin_pos f <= fst mp' < e_end_pos el).
      { rewrite Ep, Hb. eapply not_ahead; [exact A|now right|now exists t]. }
      inversion V as [| | |? ? vs Vx|]; subst.
      assert (R1 : lo <= fst mp < lo + length (seq_syms q)).
      { destruct w as [|[p a] w].
        - apply val_matches in Vx as (u & M & Eu). destruct u; [|discriminate]. assert (M2 := m_rep_nil q [] M eq_refl). apply nul_q_iff in M2. congruence.
        - destruct H as (t0 & H). injection H as <- _. exact (val_r_inside _ _ _ _ Vx F p a ltac:(now left)). }
      set (f1 := Dframe (f_seq f) (f_elem_index f) (f_begin_pos f) (length ds)).
      destruct (run_reps q lo el f1 (IH lo F P O) F N RP Fe Ep LB En w vs Vx _ mp mp' t stack mi ds 1 [] R H eq_refl Out eq_refl)
        as (l & ds' & f2 & Hl & Hds & Ef & L).
      assert (LV : length vs <> 0) by (inversion Vx; discriminate).
      exists ((ERep q, length vs) :: l), (Desc el (length vs) :: ds'), (length ds). split; [now constructor|].
      split; [constructor; [cbn; auto|exact Hds]|].
      eapply leads_trans; [|].
      2:{ replace (1 + (length vs - 1)) with (length vs) in L by lia. cbn [app] in L. rewrite Ep in L. exact L. }
      exists 1. intros n. cbn [Nat.add]. rewrite loop_S, (ltb_f f Hi), En. cbn [obind]. rewrite T. rewrite (in_range mp f el lo _ LB Ep R1). cbn zeta.
      fold f1. rewrite Ef. reflexivity.
    - (* alternatives *)
      intros b IH lo F P O el w v r mp mp' t B f stack mi ds Fe V R H Hs A LB Hb Hi En.
      apply andb_true_iff in O as [O M]. apply negb_true_iff in M. pose proof (proj2 pop_syms b P) as NE.
      assert (Q : e_type el = t_alt /\ e_end_pos el = lo + length (branches_syms b) /\ exists a, nth_error (ps_alts st) (e_index el) = Some a /\
        full_branches st (a_seqs_offset a) (a_num_seqs a) b /\
        (a_nullable_seq_index a = a_num_seqs a \/ exists q, branch b (a_nullable_seq_index a) = Some q /\ nullable q) /\
        (forall k q, k < a_nullable_seq_index a -> branch b k = Some q -> ~ nullable q)).
      { inversion Fe; subst. split; [auto|]. split; [now apply from_end|]. eauto 8. }
      destruct Q as (T & Ep & a & Ea & FB & NI & NI2).
      inversion V as [| | | |? k q ? x Eb Vx]; subst.
      destruct (full_branch _ _ _ _ _ FB Eb) as (Lk & FS). inversion FS as [? sq ? Es Fel _ _ _]; subst.
      destruct (branch_range b lo F k q Eb) as (lk & A1 & A2 & Fk).
      assert (RQ : runs_q q lk) by (apply (IH lo F P O k q lk Eb Fk)).
      assert (BI : (if negb (pos_in_range mp f el) then
               if a_nullable_seq_index a <? a_num_seqs a then Some (a_nullable_seq_index a) else None
             else find_branch st (a_num_seqs a) (a_seqs_offset a) 0 (fst mp)) = Some k).
      { destruct w as [|[p ar] w].
        - destruct H as (t0 & H). injection H as <- _. assert (Nq : nullable q) by (apply nul_q_iff; now apply (val_nullable q x)).
          assert (Nb : nul_b b = true) by (apply nul_b_iff; eauto).
          rewrite (out_of_range mp' f el _ _ eq_refl Ep).
          2:{ eapply not_ahead; [exact A|left; exact Nb|now exists t]. }
          cbn [negb]. assert (K : a_nullable_seq_index a = k).
          { destruct (Nat.lt_trichotomy (a_nullable_seq_index a) k) as [X|[X|X]]; [exfalso|exact X|exfalso].
            - destruct NI as [NI|(q2 & B2 & N2)]; [lia|]. rewrite (proj2 (multi_iff b)) in M; [discriminate|].
              exists (a_nullable_seq_index a), k, q2, q. auto.
            - now apply (NI2 k q). }
          rewrite K, (proj2 (Nat.ltb_lt _ _)) by lia. reflexivity.
        - destruct H as (t0 & H). injection H as <- _. pose proof (val_inside _ _ _ _ Vx Fk p ar ltac:(now left)) as R1.
          rewrite (in_range (p, ar) f el lo _ LB Ep) by (cbn [fst]; lia). cbn [negb fst].
          pose proof (find_branch_run b (a_seqs_offset a) (a_num_seqs a) lo 0) as FR. rewrite Nat.add_0_r in FR.
          specialize (FR FB F P k q lk p Eb Fk R1 0). now rewrite Nat.add_0_r in FR. }
      destruct (RQ w x _ mp mp' t (f_begin_pos f) (Dframe sq 0 (f_begin_pos f) (f_desc_index f)) (f :: stack) mi (ds ++ [Desc el k]) (q_num_elems sq) Vx R H eq_refl)
          as (l & ds' & di & b' & Hl & Hds & L); auto; try lia.
      { intros p ar s' X Y. injection X as -> ->. destruct (A p ar s' eq_refl) as (S1 & N & RP); [cbn [elem_syms]; lia|]. cbn [nul_e rp_e] in N, RP.
        split; [|split; [eapply nul_b_false; eassumption|eapply rp_b_false; eassumption]].
        destruct S1 as [S1|S1]; [left; lia|]. destruct (Nat.lt_ge_cases p lk) as [Z|Z]; [now left|right].
        destruct S1 as (a1 & z & vz & S1). inversion S1 as [| | | |? k2 q2 ? x2 Eb2 V2]; subst.
        destruct (branch_range b lo F k2 q2 Eb2) as (l2 & _ & _ & F2).
        destruct (branch_at b lo k q lk p F Eb Fk ltac:(lia)) as [_ U].
        rewrite (U k2 q2 l2 Eb2 F2 (val_inside _ _ _ _ V2 F2 p a1 ltac:(now left))) in Eb2. rewrite Eb in Eb2. injection Eb2 as <-.
        now exists a1, z, x2. }
      { cbn [f_seq f_elem_index]. now rewrite Nat.add_0_r. }
      exists ((EAlt b, k) :: l), (Desc el k :: ds'), (f_desc_index f). split; [econstructor; eassumption|].
      split; [constructor; [cbn; auto|exact Hds]|].
      eapply leads_trans; [|eapply leads_trans; [exact L|]].
      + exists 1. intros n. cbn [Nat.add]. rewrite loop_S, (ltb_f f Hi), En. cbn [obind]. rewrite T, Ea. cbn [obind]. rewrite BI. cbn [obind].
        rewrite (proj2 (Nat.ltb_lt _ _)) by lia. unfold enter_seq. rewrite Es. reflexivity.
      + exists 1. intros n. cbn [Nat.add f_seq]. rewrite loop_S. cbn [f_seq f_elem_index]. rewrite Nat.ltb_irrefl, En. cbn [obind]. rewrite T.
        unfold next_elem. rewrite Ep, <- app_assoc. reflexivity.
    - (* empty *)
      intros lo F _ _ w v r mp mp' t B f stack mi ds n V R H Hs A LB Hb FE En. inversion V; subst. inversion FE; subst.
      destruct H as (t0 & H). injection H as <- _. exists [], [], (f_desc_index f), (f_begin_pos f). split; [constructor|]. split; [constructor|].
      rewrite app_nil_r, Nat.add_0_r. rewrite Nat.add_0_r in En. rewrite <- En. destruct f; apply leads_refl.
    - (* element and sequence *)
      intros e IHe q IHq lo F P O w v r mp mp' t B f stack mi ds n V R H Hs A LB Hb FE En.
      apply andb_true_iff in O as [O1 O2]. apply andb_true_iff in P as [P1 P2]. inversion V as [|? ? w1 w2 v1 v2 V1 V2]; subst. inversion FE as [|? n' el ? ? Ee Fe FE2]; subst.
      pose proof F as F0. apply from_app in F0 as [Fe0 Fq0]. rewrite <- app_assoc in R, H.
      assert (exists mp1 t1, w2 ++ mp' :: t = mp1 :: t1) as (mp1 & t1 & E1).
      { destruct w2 as [|x w2]; cbn [app]; eauto. }
      destruct (IHe lo Fe0 P1 O1 el w1 v1 (w2 ++ mp' :: t) mp mp1 t1 (f_begin_pos f) f stack mi ds Fe V1 R H E1) as (l & ds' & di & Hl & Hds & L); auto; try lia.
      { eapply aheadB_head; eassumption. }
      apply rest_app in R.
      destruct (IHq _ Fq0 P2 O2 w2 v2 (mp' :: t) mp1 mp' t (lo + length (elem_syms e)) (Dframe (f_seq f) (S (f_elem_index f)) (lo + length (elem_syms e)) di) stack (mi + length w1) (ds ++ ds') n' V2 R (ex_intro _ t1 E1) eq_refl)
        as (l2 & ds2 & di2 & b2 & Hl2 & Hds2 & L2); auto; try lia.
      { eapply aheadB_tail; eassumption. }
      { cbn [f_seq f_elem_index]. now rewrite Nat.add_succ_r. }
      { cbn [f_seq f_elem_index]. lia. }
      exists (l ++ l2), (ds' ++ ds2), di2, b2. split; [now constructor|]. split; [now apply encodes_app|].
      eapply leads_trans; [exact L|]. rewrite app_length, Nat.add_assoc, app_assoc. exact L2.
    - (* last branch *)
      intros q IH lo F P O [|k] q' l Eb Fl; cbn [branch] in Eb; [|discriminate]. injection Eb as <-. apply andb_true_iff in P as [P _]. now apply IH.
    - (* branches *)
      intros q IHq b IHb lo F P O [|k] q' l Eb Fl; cbn [branch] in Eb; apply andb_true_iff in O as [O1 O2]; apply andb_true_iff in P as [P P2]; apply andb_true_iff in P as [P1 _].
      + injection Eb as <-. now apply IHq.
      + apply from_app in F as [_ F]. now apply (IHb _ F P2 O2 k).
  Qed.
End Run.

Lemma generate_run st k q w v num : full_seq st k q -> numbered q -> pop_q q = true -> ok_q q = true -> val_seq q w v ->
  exists ds l fuel0, says_seq q v l /\ encodes st ds l /\
    forall fuel, fuel0 <= fuel -> generate_descs st fuel k (w ++ [(length (seq_syms q), num)]) = Some ds.
Proof.
  intros FS N P O V. inversion FS as [? sq ? Es Fel _ _ _]; subst.
  set (mps := w ++ [(length (seq_syms q), num)]).
  assert (exists mp t, mps = mp :: t) as (mp & t & Em) by (unfold mps; destruct w; cbn [app]; eauto).
  destruct (proj1 (proj2 (run st mps)) q 0 N P O w v [(length (seq_syms q), num)] mp (length (seq_syms q), num) [] 0 (Dframe sq 0 0 0) [] 0 [] (q_num_elems sq) V)
    as (l & ds & di & b & Hl & Hds & (c & L)); auto.
  { reflexivity. }
  { exists t. exact Em. }
  { apply aheadB_out. intros p a s' X Y. injection X as <- _ _. cbn [Nat.add] in Y. lia. }
  { cbn [f_seq f_elem_index]. now rewrite Nat.add_0_r. }
  exists ds, l, (c + 1). split; [exact Hl|]. split; [exact Hds|]. intros fuel Hf. unfold generate_descs. rewrite Es. cbn [obind].
  assert (E0 : @nth_error match_pos mps 0 = Some mp) by (rewrite Em; reflexivity). fold mps. rewrite E0. cbn [obind].
  replace fuel with (c + S (fuel - c - 1)) by lia. rewrite L. rewrite loop_S. cbn [f_seq f_elem_index]. rewrite Nat.ltb_irrefl.
  unfold mps. rewrite app_length. cbn [length Nat.add]. rewrite Nat.add_1_r, Nat.eqb_refl. reflexivity.
Qed.

(* ---- patterns from syntax trees ---- *)

Lemma seq_app_syms a b : seq_syms (seq_app a b) = seq_syms a ++ seq_syms b.
Proof. induction a as [|e a IH]; cbn [seq_app seq_syms]; [reflexivity|]. now rewrite IH, app_assoc. Qed.
Lemma pop_seq_app a b : pop_q (seq_app a b) = pop_q a && pop_q b.
Proof. induction a as [|e a IH]; cbn [seq_app pop_q]; [reflexivity|]. now rewrite IH, andb_assoc. Qed.
Lemma pop_br_app a b : pop_b (br_app a b) = pop_b a && pop_b b.
Proof. induction a as [q|q a IH]; cbn [br_app pop_b]; [reflexivity|]. now rewrite IH, andb_assoc. Qed.

Lemma shape_pop f t : forall pos, (pop_q (fst (shape f pos t)) = true /\ seq_syms (fst (shape f pos t)) <> []) /\ pop_b (snd (shape f pos t)) = true.
Proof.
  assert (L : forall q : tseq, seq_syms q <> [] -> negb (length (seq_syms q) =? 0) = true).
  { intros q H. destruct (seq_syms q); [now destruct H|reflexivity]. }
  assert (S1 : forall e, pop_e e = true -> (pop_q (SCons e SNil) = true /\ seq_syms (SCons e SNil) <> []) /\ pop_b (BOne (SCons e SNil)) = true).
  { intros e H. assert (seq_syms (SCons e SNil) <> []) by (cbn [seq_syms]; rewrite app_nil_r; now apply pop_syms).
    cbn [pop_q pop_b]. rewrite H, L by assumption. auto. }
  induction t as [l|a IH|a IH|a IHa b IHb|a IHa b IHb]; intros pos; cbn [shape fst snd].
  - now apply S1.
  - apply S1. cbn [pop_e]. destruct (IH pos) as [[A B] _]. now rewrite A, L.
  - apply S1. cbn [pop_e]. destruct (IH pos) as [[A B] _]. now rewrite A, L.
  - destruct (IHa pos) as [[A B] _], (IHb (pos + length (leaves a))) as [[C D] _].
    assert (X : seq_syms (seq_app (fst (shape f pos a)) (fst (shape f (pos + length (leaves a)) b))) <> []).
    { rewrite seq_app_syms. intros X. now apply app_eq_nil in X as [X _]. }
    cbn [pop_b]. rewrite pop_seq_app, A, C, L by exact X. auto.
  - destruct (IHa pos) as [_ A], (IHb (pos + length (leaves a))) as [_ B].
    assert (X : pop_b (br_app (snd (shape f pos a)) (snd (shape f (pos + length (leaves a)) b))) = true) by now rewrite pop_br_app, A, B.
    split; [|exact X]. apply S1. exact X.
Qed.

Lemma elements_pop f t : pop_q (elements f t) = true.
Proof. destruct t as [t|]; [apply (shape_pop f t 0)|reflexivity]. Qed.
