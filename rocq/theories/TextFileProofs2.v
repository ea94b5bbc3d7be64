(* Lemmas on text files: the buffered implementation. *)
From Coq Require Import List Arith Bool Lia.
From Verif Require Import ArrLib NewlineModel NewlineSpec NewlineProofs WinFileModel WinFileSpec WinFileProofs TextFileModel TextFileSpec TextFileProofs.
Import ListNotations.

Lemma firstn_place : forall b o d, o <= length b -> firstn (o + length d) (place b o d) = firstn o b ++ d.
Proof.
  intros b o d L. unfold place. rewrite app_assoc. apply firstn_len_app. rewrite app_length, firstn_length_le by assumption. reflexivity.
Qed.
Lemma skipn_firstn_eq : forall {A} (l : list A) a b, a <= b -> skipn a (firstn b l) = firstn (b - a) (skipn a l).
Proof.
  intros A l a b L. replace (firstn b l) with (firstn (a + (b - a)) l) by (f_equal; lia). rewrite firstn_add.
  destruct (Nat.le_ge_cases a (length l)) as [La|La].
  - apply skipn_firstn_app. apply firstn_length_le. assumption.
  - rewrite (skipn_all2 l) by assumption. rewrite firstn_nil, app_nil_r. apply skipn_all2. rewrite firstn_length. lia.
Qed.
Lemma firstn_firstn_le : forall {A} (l : list A) a b, a <= b -> firstn a (firstn b l) = firstn a l.
Proof. intros A l a b L. rewrite firstn_firstn, Nat.min_l by assumption. reflexivity. Qed.

Lemma upto_some : forall delim l chars, upto delim l = Some chars -> ends_at delim chars /\ chars = firstn (length chars) l /\ length chars <= length l /\ 0 < length chars.
Proof.
  intros delim. induction l as [|c l IH]; intros chars E; [discriminate|]. cbn [upto] in E. destruct (Nat.eqb_spec c delim) as [->|N].
  - assert (chars = [delim]) as -> by congruence. split; [exists []; split; [reflexivity|intros []]|]. cbn. repeat split; lia.
  - destruct (upto delim l) as [r|] eqn:U; [|discriminate E]. cbn in E. assert (chars = c :: r) as -> by congruence.
    destruct (IH r eq_refl) as ((q & Q1 & Q2) & F & L & P). split; [|cbn; repeat split; try lia; congruence].
    exists (c :: q). split; [cbn; congruence|]. intros [I|I]; [congruence|contradiction].
Qed.
Lemma upto_none : forall delim l, upto delim l = None -> ~ In delim l.
Proof.
  intros delim. induction l as [|c l IH]; intros E; [intros []|]. cbn [upto] in E. destruct (Nat.eqb_spec c delim) as [->|N]; [discriminate E|].
  destruct (upto delim l); [discriminate E|]. intros [I|I]; [congruence|]. exact (IH eq_refl I).
Qed.

Section Buf.
  Context {T : Type}.
  Variables (w reports flaky : bool) (sub : T -> op -> option (result * T)) (file_of : T -> list nat) (R : T -> view -> Prop).
  Hypothesis Imp : implements w reports flaky sub file_of R.
  Variable more : nat -> nat.
  Let total (s : T) : nat := length (file_of s).

  Record rdg (b : buffered T) (c : list nat) (p a : nat) (vs : view) (cs : list (nat * nat)) : Prop := {
    rg_sub : R (b_sub b) vs;
    rg_mode : v_mode vs <> Writing;
    rg_content : v_content vs = c;
    rg_reads : reads_as w (skipn (v_pos vs) c) cs;
    rg_order : b_offset b <= b_begin b <= b_curr b /\ b_curr b <= b_end b <= length (b_buffer b);
    rg_subahead : v_ahead vs = b_end b - b_offset b;
    rg_held : skipn (b_offset b) (firstn (b_end b) (b_buffer b)) = map fst (firstn (b_end b - b_offset b) cs);
    rg_pos : p = v_pos vs + extent (firstn (b_begin b - b_offset b) cs);
    rg_ahead : a = b_curr b - b_begin b;
    rg_buffer : 0 < length (b_buffer b)
  }.

  Definition bheld (b : buffered T) : list nat := skipn (b_begin b) (firstn (b_end b) (b_buffer b)).

  Record wtg (b : buffered T) (v : view) (vs : view) : Prop := {
    wg_sub : R (b_sub b) vs;
    wg_mode : v_mode vs <> Reading;
    wg_zero : b_offset b = 0 /\ b_curr b = 0;
    wg_order : b_begin b <= b_end b <= length (b_buffer b);
    wg_view : v = put_as w vs (bheld b);
    wg_buffer : 0 < length (b_buffer b)
  }.

  Definition brel (b : buffered T) (v : view) : Prop :=
    match v_mode v with
    | Neutral => b_begin b = 0 /\ b_end b = 0 /\ b_offset b = 0 /\ b_curr b = 0 /\ 0 < length (b_buffer b) /\ R (b_sub b) v
    | Reading => exists vs cs, rdg b (v_content v) (v_pos v) (v_ahead v) vs cs
    | Writing => exists vs, wtg b v vs
    end.

  Definition neutral (b : buffered T) (vs : view) : Prop :=
    v_mode vs = Neutral /\ b_begin b = 0 /\ b_end b = 0 /\ b_offset b = 0 /\ b_curr b = 0.

  Lemma brel_rdg : forall b v, brel b v -> v_mode v <> Writing -> exists vs cs, rdg b (v_content v) (v_pos v) (v_ahead v) vs cs /\ (v_mode v = Neutral -> neutral b vs).
  Proof.
    intros b v H M. unfold brel in H. destruct (v_mode v) eqn:E; [|destruct H as (vs & cs & H); exists vs, cs; split; [exact H|congruence]|contradiction].
    destruct H as (Z1 & Z2 & Z3 & Z4 & L & H). destruct (ras_exists w (skipn (v_pos v) (v_content v))) as [cs Rc]. exists v, cs.
    split; [|intros _; repeat split; assumption].
    pose proof (im_ahead _ _ _ _ _ _ Imp _ _ H ltac:(congruence)) as A. constructor; rewrite ?Z1, ?Z2, ?Z3, ?Z4; cbn; try assumption; try lia; try reflexivity; try congruence.
  Qed.
  Lemma rdg_brel : forall b c p a vs cs, rdg b c p a vs cs -> brel b (View Reading c p a).
  Proof. intros b c p a vs cs H. exists vs, cs. exact H. Qed.

  Lemma rdg_back : forall b v vs cs, rdg b (v_content v) (v_pos v) (v_ahead v) vs cs -> v_mode v <> Writing -> (v_mode v = Neutral -> neutral b vs) -> brel b v.
  Proof.
    intros b v vs cs H M N. unfold brel. destruct (v_mode v) eqn:E; [|eauto|contradiction]. destruct (N eq_refl) as (Z0 & Z1 & Z2 & Z3 & Z4).
    do 4 (split; [assumption|]). split; [apply (rg_buffer _ _ _ _ _ _ H)|]. pose proof (rg_sub _ _ _ _ _ _ H) as Q.
    pose proof (rg_content _ _ _ _ _ _ H) as C. pose proof (rg_subahead _ _ _ _ _ _ H) as A. pose proof (rg_pos _ _ _ _ _ _ H) as P. pose proof (rg_ahead _ _ _ _ _ _ H) as Av.
    rewrite Z1, Z2, Z3, Z4 in *. destruct v as [m c p a], vs as [m2 c2 p2 a2]. cbn in *. rewrite Nat.add_0_r in P. subst. exact Q.
  Qed.

  Lemma wtg_mode : forall b v vs, wtg b v vs -> v_mode v = Writing /\ v_ahead v = 0.
  Proof. intros b v vs H. rewrite (wg_view _ _ _ H). auto. Qed.
  Lemma wtg_brel : forall b v vs, wtg b v vs -> brel b v.
  Proof. intros b v vs H. unfold brel. rewrite (proj1 (wtg_mode _ _ _ H)). exists vs. exact H. Qed.
  Lemma brel_wtg : forall b v, brel b v -> v_mode v <> Reading -> exists vs, wtg b (View Writing (v_content v) (v_pos v) 0) vs.
  Proof.
    intros b v H M. unfold brel in H. destruct (v_mode v) eqn:E; [|contradiction|].
    - destruct H as (Z1 & Z2 & Z3 & Z4 & L & H). exists v. constructor; rewrite ?Z1, ?Z2, ?Z3, ?Z4; auto; [congruence|lia|].
      unfold bheld. rewrite Z1, Z2. cbn [skipn firstn]. rewrite put_as_nil. reflexivity.
    - destruct H as [vs H]. exists vs. destruct v as [m c p a]. destruct (wtg_mode _ _ _ H) as [E1 E2]. cbn in E1, E2. subst. exact H.
  Qed.

  (* ---- reading ---- *)

  Lemma rdg_within : forall b c p a vs cs, rdg b c p a vs cs -> b_end b - b_offset b <= length cs.
  Proof.
    intros b c p a vs cs H. rewrite <- (rg_subahead _ _ _ _ _ _ H). apply (im_within _ _ _ _ _ _ Imp _ _ _ (rg_sub _ _ _ _ _ _ H)).
    rewrite (rg_content _ _ _ _ _ _ H). apply (rg_reads _ _ _ _ _ _ H).
  Qed.
  (* the characters from the logical file pointer on *)
  Lemma rdg_reads : forall b c p a vs cs, rdg b c p a vs cs -> reads_as w (skipn p c) (skipn (b_begin b - b_offset b) cs).
  Proof. intros b c p a vs cs H. rewrite (rg_pos _ _ _ _ _ _ H). apply ras_further. apply (rg_reads _ _ _ _ _ _ H). Qed.
  (* the characters that can be copied *)
  Lemma rdg_rest : forall b c p a vs cs, rdg b c p a vs cs ->
    skipn (b_curr b) (firstn (b_end b) (b_buffer b)) = map fst (firstn (b_end b - b_curr b) (skipn (b_curr b - b_offset b) cs)).
  Proof.
    intros b c p a vs cs H. pose proof (rg_order _ _ _ _ _ _ H) as O.
    replace (skipn (b_curr b) (firstn (b_end b) (b_buffer b))) with (skipn (b_curr b - b_offset b) (skipn (b_offset b) (firstn (b_end b) (b_buffer b))))
      by (rewrite skipn_add; f_equal; lia).
    rewrite (rg_held _ _ _ _ _ _ H), skipn_map, skipn_firstn_eq by lia. do 2 f_equal. lia.
  Qed.

  Lemma copy_out_ok : forall b c p a vs cs size, rdg b c p a vs cs -> b_curr b < b_end b -> 0 < size ->
    exists chars b', copy_out b size = Some (ResRead chars, b') /\
      chars = map fst (firstn (length chars) (skipn a (skipn (b_begin b - b_offset b) cs))) /\ 0 < length chars <= size /\
      rdg b' c p (a + length chars) vs cs.
  Proof.
    intros b c p a vs cs size H L Ls. pose proof (rg_order _ _ _ _ _ _ H) as O. unfold copy_out.
    set (n := min size (b_end b - b_curr b)). assert (Ln : 0 < n <= size /\ n <= b_end b - b_curr b) by (unfold n; lia).
    rewrite (proj2 (Nat.leb_le _ _) (Nat.lt_le_incl _ _ L)), (proj2 (Nat.leb_le (b_end b) (length (b_buffer b)))), (proj2 (Nat.ltb_lt 0 n)) by lia.
    cbn [andb negb]. assert (Lc : length (firstn n (skipn (b_curr b) (b_buffer b))) = n) by (apply firstn_length_le; rewrite skipn_length; lia).
    do 2 eexists. split; [reflexivity|]. rewrite Lc. split; [|split; [lia|]].
    - replace (firstn n (skipn (b_curr b) (b_buffer b))) with (firstn n (skipn (b_curr b) (firstn (b_end b) (b_buffer b))))
        by (rewrite skipn_firstn_eq by lia; apply firstn_firstn_le; lia).
      rewrite (rdg_rest _ _ _ _ _ _ H), firstn_map, firstn_firstn_le by lia. rewrite skipn_add, (rg_ahead _ _ _ _ _ _ H). do 3 f_equal. lia.
    - destruct H. constructor; cbn [b_sub b_buffer b_begin b_end b_offset b_curr]; try assumption; lia.
  Qed.

  (* the implementation below is moved to the logical file pointer *)
  Lemma rdg_shift : forall b c p a vs cs, rdg b c p a vs cs -> exists s vs', sub (b_sub b) (OpAdvance (b_begin b - b_offset b)) = Some (ResDone, s) /\
    v_pos vs' = p /\ v_mode vs' = v_mode vs /\ rdg (Buffered s (b_buffer b) (b_begin b) (b_end b) (b_begin b) (b_curr b)) c p a vs' (skipn (b_begin b - b_offset b) cs).
  Proof.
    intros b c p a vs cs H. pose proof (rg_order _ _ _ _ _ _ H) as O. pose proof (rg_subahead _ _ _ _ _ _ H) as A.
    destruct (im_step _ _ _ _ _ _ Imp _ vs (OpAdvance (b_begin b - b_offset b)) (rg_sub _ _ _ _ _ _ H)) as (r & s & v' & E & G & H').
    { split; [apply (rg_mode _ _ _ _ _ _ H)|]. lia. }
    inversion G; subst. match goal with M : moved_as _ _ _ _ |- _ => apply moved_as_of with (cs := cs) in M end.
    2:{ rewrite (rg_content _ _ _ _ _ _ H). apply (rg_reads _ _ _ _ _ _ H). }
    subst v'. exists s. exists (View (v_mode vs) (v_content vs) (v_pos vs + extent (firstn (b_begin b - b_offset b) cs)) (v_ahead vs - (b_begin b - b_offset b))). split; [exact E|]. split; [|split; [reflexivity|]; constructor; cbn [b_sub b_buffer b_begin b_end b_offset b_curr]; [exact H'|..]];
      cbn [v_mode v_content v_pos v_ahead].
    - symmetry. apply (rg_pos _ _ _ _ _ _ H).
    - apply (rg_mode _ _ _ _ _ _ H).
    - apply (rg_content _ _ _ _ _ _ H).
    - apply ras_further. apply (rg_reads _ _ _ _ _ _ H).
    - lia.
    - lia.
    - replace (skipn (b_begin b) (firstn (b_end b) (b_buffer b))) with (skipn (b_begin b - b_offset b) (skipn (b_offset b) (firstn (b_end b) (b_buffer b))))
        by (rewrite skipn_add; f_equal; lia).
      rewrite (rg_held _ _ _ _ _ _ H), skipn_map, skipn_firstn_eq by lia. do 2 f_equal. lia.
    - rewrite Nat.sub_diag. cbn. rewrite Nat.add_0_r. apply (rg_pos _ _ _ _ _ _ H).
    - apply (rg_ahead _ _ _ _ _ _ H).
    - apply (rg_buffer _ _ _ _ _ _ H).
  Qed.

  Lemma grow_length : forall buffer, length buffer < length (grow more buffer).
  Proof. intros buffer. unfold grow. rewrite app_length, repeat_length. lia. Qed.

  (* retained characters are moved to the front of the buffer *)
  Lemma rdg_front : forall b c p a vs cs, rdg b c p a vs cs -> b_offset b = b_begin b ->
    let end_ := b_end b - b_begin b in
    let buffer := place (b_buffer b) 0 (skipn (b_begin b) (firstn (b_end b) (b_buffer b))) in
    let buffer := if end_ =? length buffer then grow more buffer else buffer in
    end_ < length buffer /\ rdg (Buffered (b_sub b) buffer 0 end_ 0 (b_curr b - b_begin b)) c p a vs cs.
  Proof.
    intros b c p a vs cs H Eo end_ buffer1 buffer. pose proof (rg_order _ _ _ _ _ _ H) as O.
    set (kept := skipn (b_begin b) (firstn (b_end b) (b_buffer b))) in *.
    assert (Lk : length kept = end_) by (unfold kept; rewrite skipn_length, firstn_length_le by lia; reflexivity).
    assert (L1 : length buffer1 = length (b_buffer b)) by (unfold buffer1; apply place_length; lia).
    assert (F1 : firstn end_ buffer1 = kept).
    { unfold buffer1. rewrite <- Lk. change (length kept) with (0 + length kept) at 1. rewrite firstn_place by lia. reflexivity. }
    assert (L2 : end_ < length buffer).
    { unfold buffer. destruct (Nat.eqb_spec end_ (length buffer1)) as [Q|Q]; [|lia]. rewrite Q. apply grow_length. }
    assert (F2 : firstn end_ buffer = kept).
    { unfold buffer. destruct (Nat.eqb_spec end_ (length buffer1)) as [Q|Q]; [|exact F1]. unfold grow.
      rewrite firstn_app, Q, Nat.sub_diag, <- Q, F1. apply app_nil_r. }
    split; [exact L2|]. constructor; cbn [b_sub b_buffer b_begin b_end b_offset b_curr]; try apply H.
    - lia.
    - rewrite (rg_subahead _ _ _ _ _ _ H). lia.
    - cbn [skipn]. rewrite F2. unfold kept. rewrite <- Eo. rewrite (rg_held _ _ _ _ _ _ H). do 2 f_equal. lia.
    - rewrite (rg_pos _ _ _ _ _ _ H), Eo, Nat.sub_diag. reflexivity.
    - rewrite (rg_ahead _ _ _ _ _ _ H). lia.
    - lia.
  Qed.

  (* characters are appended to the contents of the buffer *)
  Lemma rdg_fill : forall b c p a vs cs size dyn, rdg b c p a vs cs -> b_offset b = 0 -> size = length (b_buffer b) - b_end b -> 0 < size ->
    exists r s, sub (b_sub b) (OpReadAhead size dyn) = Some (r, s) /\
      match r with
      | ResRead chars => exists vs', rdg (Buffered s (place (b_buffer b) (b_end b) chars) (b_begin b) (b_end b + length chars) 0 (b_curr b)) c p a vs' cs /\
                           (chars = [] -> at_end w dyn (skipn (b_end b) cs))
      | ResFailed => flaky = true /\ exists vs', rdg (Buffered s (b_buffer b) (b_begin b) (b_end b) 0 (b_curr b)) c p a vs' cs
      | _ => False
      end.
  Proof.
    intros b c p a vs cs size dyn H Eo Es Ls. pose proof (rg_order _ _ _ _ _ _ H) as O. pose proof (rg_subahead _ _ _ _ _ _ H) as A.
    destruct (im_step _ _ _ _ _ _ Imp _ vs (OpReadAhead size dyn) (rg_sub _ _ _ _ _ _ H) (rg_mode _ _ _ _ _ _ H)) as (r & s & v' & E & G & H').
    exists r, s. split; [exact E|]. rewrite Eo, Nat.sub_0_r in A. inversion G; subst.
    - match goal with X : reads_as _ _ ?y |- _ => assert (y = cs) as -> by (eapply ras_det; [exact X|]; rewrite ?(rg_content _ _ _ _ _ _ H); apply (rg_reads _ _ _ _ _ _ H)) end.
      rewrite A in *. split with (x := View Reading (v_content vs) (v_pos vs) (b_end b + length chars)). split.
      2:{ intros ->. match goal with X : _ \/ [] <> [] \/ _ |- _ => destruct X as [X|[X|X]] end; [lia|congruence|assumption]. }
      constructor; cbn [b_sub b_buffer b_begin b_end b_offset b_curr v_mode v_content v_pos v_ahead]; try apply H; try assumption; try congruence; try lia.
      + split; [lia|]. rewrite place_length by lia. lia.
      + cbn [skipn]. rewrite firstn_place, Nat.sub_0_r, firstn_add, map_app by lia. f_equal; [|assumption].
        pose proof (rg_held _ _ _ _ _ _ H) as X. rewrite Eo, Nat.sub_0_r in X. exact X.
      + rewrite (rg_pos _ _ _ _ _ _ H), Eo. reflexivity.
      + rewrite place_length by lia. apply (rg_buffer _ _ _ _ _ _ H).
    - split; [auto|]. eexists. constructor; cbn [b_sub b_buffer b_begin b_end b_offset b_curr]; [exact H'|..]; cbn [v_mode v_content v_pos v_ahead]; try apply H; try congruence; try lia.
      + pose proof (rg_held _ _ _ _ _ _ H) as X. rewrite Eo in X. exact X.
      + rewrite (rg_pos _ _ _ _ _ _ H), Eo. reflexivity.
  Qed.

  Lemma skipn_nil_le : forall {A} (l : list A) n, length l <= n -> skipn n l = [].
  Proof. intros. apply skipn_all2. assumption. Qed.

  Lemma b_read_ahead_ok : forall b v size dyn, brel b v -> v_mode v <> Writing ->
    exists r b' v', b_read_ahead sub more b size dyn = Some (r, b') /\ gstep w reports flaky v (OpReadAhead size dyn) r v' /\ brel b' v'.
  Proof.
    intros b v size dyn H M. destruct (brel_rdg b v H M) as (vs & cs & G & Nt). pose proof (rg_order _ _ _ _ _ _ G) as O. unfold b_read_ahead.
    assert (Done : forall chars b' vs' cs', chars = map fst (firstn (length chars) (skipn (v_ahead v) (skipn (b_begin b - b_offset b) cs))) -> length chars <= size ->
      (size = 0 \/ chars <> [] \/ at_end w dyn (skipn (v_ahead v) (skipn (b_begin b - b_offset b) cs))) ->
      rdg b' (v_content v) (v_pos v) (v_ahead v + length chars) vs' cs' ->
      exists r b'' v', Some (ResRead chars, b') = Some (r, b'') /\ gstep w reports flaky v (OpReadAhead size dyn) r v' /\ brel b'' v').
    { intros chars b' vs' cs' C1 C2 C3 C4. do 3 eexists. split; [reflexivity|]. split; [|apply (rdg_brel _ _ _ _ _ _ C4)].
      eapply gstep_read; [apply (rdg_reads _ _ _ _ _ _ G)|assumption..]. }
    destruct (Nat.ltb_spec 0 size) as [Ls|Ls].
    2:{ eapply (Done [] b); [reflexivity|cbn; lia|left; lia|]. cbn. rewrite Nat.add_0_r. exact G. }
    destruct (Nat.ltb_spec (b_curr b) (b_end b)) as [Lc|Lc].
    - destruct (copy_out_ok _ _ _ _ _ _ size G Lc Ls) as (chars & b' & -> & C1 & C2 & C3). eapply Done; [exact C1|lia| |exact C3].
      right; left. intros ->. cbn in C2. lia.
    - rewrite (proj2 (Nat.leb_le (b_offset b) (b_begin b))), (proj2 (Nat.leb_le (b_begin b) (b_curr b))), (proj2 (Nat.leb_le (b_begin b) (b_end b))),
        (proj2 (Nat.leb_le (b_end b) (length (b_buffer b)))) by lia. cbn [andb negb].
      destruct (rdg_shift _ _ _ _ _ _ G) as (s & vs1 & -> & P1 & M1 & G1). cbn [obind].
      destruct (rdg_front _ _ _ _ _ _ G1 eq_refl) as [L2 G2]. cbn [b_sub b_buffer b_begin b_end b_offset b_curr] in L2, G2. cbv zeta in L2, G2 |- *.
      set (end_ := b_end b - b_begin b) in *. set (buffer := if end_ =? _ then _ else _) in *.
      destruct (rdg_fill _ _ _ _ _ _ (length buffer - end_) dyn G2 eq_refl eq_refl) as (r & s' & Es & F); [cbn; lia|].
      cbn [b_sub b_buffer b_begin b_end b_offset b_curr] in Es, F. rewrite Es. cbn [obind].
      destruct r as [chars|?|?| | |?]; try contradiction.
      + destruct F as (vs' & F & At). destruct (Nat.ltb_spec 0 (length chars)) as [Lh|Lh].
        * destruct (copy_out_ok _ _ _ _ _ _ size F) as (chars' & b' & -> & C1 & C2 & C3); [cbn; lia|assumption|].
          cbn [b_begin b_offset] in C1. rewrite Nat.sub_diag in C1. cbn [skipn] in C1.
          eapply Done; [exact C1|lia| |exact C3]. right; left. intros ->. cbn in C2. lia.
        * destruct chars as [|? ?]; [|cbn in Lh; lia]. specialize (At eq_refl).
          assert (G3 : rdg (Buffered s' buffer 0 end_ 0 (b_curr b - b_begin b)) (v_content v) (v_pos v) (v_ahead v) vs' (skipn (b_begin b - b_offset b) cs)).
          { assert (Pl : place buffer end_ [] = buffer) by (unfold place; cbn [length app]; rewrite Nat.add_0_r; apply firstn_skipn).
            cbn [length] in F. rewrite Nat.add_0_r, Pl in F. exact F. }
          eapply (Done []); [reflexivity|cbn; lia| |cbn [length]; rewrite Nat.add_0_r; exact G3].
          right; right. rewrite (rg_ahead _ _ _ _ _ _ G). replace (b_curr b - b_begin b) with end_ by (unfold end_; lia). exact At.
      + destruct F as (Fl & vs' & F). do 3 eexists. split; [reflexivity|]. split; [apply gstep_read_failed; exact Fl|]. apply (rdg_brel _ _ _ _ _ _ F).
  Qed.

  (* ---- read_until() ---- *)

  (* more characters from a later position *)
  Lemma until_later : forall c p cs m1 a delim dyn m2 q rest r v',
    reads_as w (skipn p c) cs -> rest = map fst (firstn (length rest) (skipn a cs)) -> length rest <= length (skipn a cs) -> ~ In delim rest ->
    q = p + extent (firstn (a + length rest) cs) ->
    bstep w reports flaky (View m2 c q 0) (ReadUntil delim dyn) r v' ->
    bstep w reports flaky (View m1 c p a) (ReadUntil delim dyn)
      (match r with Until found chars => Until found (rest ++ chars) | UntilFailed chars => UntilFailed (rest ++ chars) | _ => r end) v'.
  Proof.
    intros c p cs m1 a delim dyn m2 q rest r v' Rc Er Lr N Eq B.
    assert (Rq : reads_as w (skipn q c) (skipn (a + length rest) cs)) by (rewrite Eq; apply ras_further, Rc).
    assert (Cs : forall chars, chars = map fst (firstn (length chars) (skipn (a + length rest) cs)) ->
              rest ++ chars = map fst (firstn (length (rest ++ chars)) (skipn a cs))).
    { intros chars Ec. rewrite app_length, firstn_add, map_app, skipn_add. congruence. }
    assert (Ps : forall k, q + extent (firstn (0 + k) (skipn (a + length rest) cs)) = p + extent (firstn (a + (length rest + k)) cs)).
    { intros k. cbn [Nat.add]. replace (a + (length rest + k)) with ((a + length rest) + k) by lia. rewrite (firstn_add cs (a + length rest) k), extent_app. lia. }
    inversion B; subst; cbn [v_content v_pos v_ahead] in *.
    - match goal with X : reads_as _ _ ?y |- _ => match y with cs0 => assert (cs0 = skipn (a + length rest) cs) as -> by (eapply ras_det; eassumption) end end.
      rewrite Ps. replace (length chars - k) with (length (rest ++ chars) - (length rest + k)) by (rewrite app_length; lia).
      eapply (bstep_until w reports _ (View m1 c p a)); cbn [v_content v_pos v_ahead]; [eassumption|apply Cs; assumption| |rewrite app_length; lia].
      destruct found.
      + match goal with X : ends_at _ _ |- _ => destruct X as (l & -> & Nl) end. exists (rest ++ l). rewrite app_assoc. split; [reflexivity|].
        intros I. apply in_app_or in I. tauto.
      + match goal with X : ~ _ /\ at_end _ _ _ |- _ => destruct X as [X1 X2] end. split; [intros I; apply in_app_or in I; tauto|].
        rewrite skipn_add in X2. rewrite app_length, Nat.add_assoc. exact X2.
    - match goal with X : reads_as _ _ ?y |- _ => match y with cs0 => assert (cs0 = skipn (a + length rest) cs) as -> by (eapply ras_det; eassumption) end end.
      rewrite Ps. replace (length chars - k) with (length (rest ++ chars) - (length rest + k)) by (rewrite app_length; lia).
      eapply (bstep_until_failed w reports _ (View m1 c p a)); cbn [v_content v_pos v_ahead]; [auto|eassumption|apply Cs; assumption| |rewrite app_length; lia].
      intros I; apply in_app_or in I; tauto.
  Qed.

  Definition prepend (out : list nat) (r : bres) : bres :=
    match r with Until found chars => Until found (out ++ chars) | UntilFailed chars => UntilFailed (out ++ chars) | _ => r end.
  Lemma prepend_app : forall a b r, prepend a (prepend b r) = prepend (a ++ b) r.
  Proof. intros a b [r|f c|c]; cbn; rewrite <- ?app_assoc; reflexivity. Qed.

  Lemma until_loop_ok : forall fuel b c p vs cs m out delim dyn, rdg b c p 0 vs cs -> length (skipn (b_end b - b_offset b) cs) < fuel ->
    exists r b' v', until_loop sub fuel b out delim dyn = Some (prepend out r, b') /\ bstep w reports flaky (View m c p 0) (ReadUntil delim dyn) r v' /\ brel b' v'.
  Proof.
    induction fuel as [|fuel IH]; intros b c p vs cs m out delim dyn H Lf; [lia|]. cbn [until_loop].
    pose proof (rg_order _ _ _ _ _ _ H) as O. pose proof (rg_ahead _ _ _ _ _ _ H) as A. pose proof (rdg_within _ _ _ _ _ _ H) as W.
    rewrite (proj2 (Nat.leb_le (b_curr b) (b_end b))), (proj2 (Nat.leb_le (b_end b) (length (b_buffer b)))) by lia. cbn [andb negb].
    set (rest := skipn (b_curr b) (firstn (b_end b) (b_buffer b))).
    assert (Lr : length rest = b_end b - b_curr b) by (unfold rest; rewrite skipn_length, firstn_length_le by lia; reflexivity).
    assert (Er : rest = map fst (firstn (b_end b - b_curr b) (skipn (b_begin b - b_offset b) cs))).
    { unfold rest. rewrite (rdg_rest _ _ _ _ _ _ H). do 3 f_equal. lia. }
    pose proof (rdg_reads _ _ _ _ _ _ H) as Rp.
    destruct (upto delim rest) as [chars|] eqn:U.
    - destruct (upto_some _ _ _ U) as (U1 & U2 & U3 & U4). exists (Until true chars). do 2 eexists. split; [reflexivity|]. split.
      + eapply (bstep_until w reports _ (View m c p 0) delim dyn true chars (skipn (b_begin b - b_offset b) cs) 0); cbn [v_content v_pos v_ahead skipn]; [exact Rp| |exact U1|lia].
        rewrite U2 at 1. rewrite Er, firstn_map, firstn_firstn_le by lia. reflexivity.
      + cbn. rewrite Nat.add_0_r, Nat.sub_0_r. exists vs, cs. destruct H. constructor; cbn [b_sub b_buffer b_begin b_end b_offset b_curr v_content v_pos v_ahead]; try assumption; try lia.
    - pose proof (upto_none _ _ U) as N.
      destruct (im_step _ _ _ _ _ _ Imp _ vs OpAdvanceAll (rg_sub _ _ _ _ _ _ H) (rg_mode _ _ _ _ _ _ H)) as (r1 & s1 & v1 & -> & G1 & H1). cbn [obind].
      inversion G1; subst r1. match goal with M : moved_as _ _ _ _ |- _ => apply moved_as_of with (cs := cs) in M end.
      2:{ rewrite (rg_content _ _ _ _ _ _ H). apply (rg_reads _ _ _ _ _ _ H). }
      rewrite (rg_subahead _ _ _ _ _ _ H), (rg_content _ _ _ _ _ _ H), Nat.sub_diag in *. subst v1 v v'.
      set (q := v_pos vs + extent (firstn (b_end b - b_offset b) cs)) in *.
      assert (G2 : rdg (Buffered s1 (b_buffer b) 0 0 0 0) c q 0 (View (v_mode vs) c q 0) (skipn (b_end b - b_offset b) cs)).
      { constructor; cbn [b_sub b_buffer b_begin b_end b_offset b_curr v_mode v_content v_pos v_ahead]; try assumption; try lia; try reflexivity; try apply H.
        - apply ras_further. apply (rg_reads _ _ _ _ _ _ H).
        - cbn. lia. }
      assert (Step : forall r v', bstep w reports flaky (View Reading c q 0) (ReadUntil delim dyn) r v' ->
                bstep w reports flaky (View m c p 0) (ReadUntil delim dyn) (prepend rest r) v').
      { intros r v' B. eapply until_later with (cs := skipn (b_begin b - b_offset b) cs) (q := q); [exact Rp| | |exact N| |exact B].
        - cbn [skipn]. rewrite Lr. exact Er.
        - cbn [skipn]. rewrite skipn_length. lia.
        - cbn [Nat.add]. rewrite (rg_pos _ _ _ _ _ _ H), Lr. unfold q.
          replace (b_end b - b_offset b) with ((b_begin b - b_offset b) + (b_end b - b_curr b)) by lia. rewrite firstn_add, extent_app. lia. }
      destruct (rdg_fill _ _ _ _ _ _ (length (b_buffer b)) dyn G2 eq_refl) as (r & s2 & E2 & F); [cbn; lia|apply (rg_buffer _ _ _ _ _ _ H)|].
      cbn [b_sub b_buffer b_begin b_end b_offset b_curr] in E2, F. rewrite E2. cbn [obind].
      destruct r as [chars|?|?| | |?]; try contradiction.
      + destruct F as (vs' & F & At). destruct (Nat.ltb_spec 0 (length chars)) as [Lh|Lh].
        * destruct (IH _ _ _ _ _ Reading (out ++ rest) delim dyn F) as (r & b' & v' & E & B & H').
          { cbn [b_end b_offset]. pose proof (rdg_within _ _ _ _ _ _ F) as Wf. cbn [b_end b_offset] in Wf. rewrite skipn_length in Lf |- *. rewrite skipn_length in Wf |- *. lia. }
          exists (prepend rest r), b', v'. rewrite prepend_app. split; [exact E|]. split; [apply Step, B|exact H'].
        * destruct chars as [|? ?]; [|cbn in Lh; lia]. exists (Until false rest). do 2 eexists. split; [reflexivity|]. split.
          -- rewrite <- (app_nil_r rest). apply (Step (Until false [])).
             eapply (bstep_until w reports _ (View Reading c q 0) delim dyn false [] _ 0); cbn [v_content v_pos v_ahead skipn];
               [apply (rg_reads _ _ _ _ _ _ G2)|reflexivity|split; [intros []|exact (At eq_refl)]|cbn; lia].
          -- cbn. rewrite Nat.add_0_r. exists vs'. eexists. cbn [v_content v_pos v_ahead length]. cbn in F. exact F.
      + destruct F as (Fl & vs' & F). exists (UntilFailed rest). do 2 eexists. split; [reflexivity|]. split.
        * rewrite <- (app_nil_r rest). apply (Step (UntilFailed [])).
          eapply (bstep_until_failed w reports _ (View Reading c q 0) delim dyn [] _ 0); cbn [v_content v_pos v_ahead skipn];
            [exact Fl|apply (rg_reads _ _ _ _ _ _ G2)|reflexivity|intros []|cbn; lia].
        * cbn. rewrite Nat.add_0_r. exists vs'. eexists. exact F.
  Qed.

  Lemma b_read_until_ok : forall b v delim dyn, brel b v -> v_mode v <> Writing ->
    exists r b' v', b_read_until sub total b delim dyn = Some (r, b') /\ bstep w reports flaky v (ReadUntil delim dyn) r v' /\ brel b' v'.
  Proof.
    intros b v delim dyn H M. destruct (brel_rdg b v H M) as (vs & cs & G & Nt). pose proof (rg_order _ _ _ _ _ _ G) as O.
    pose proof (rg_ahead _ _ _ _ _ _ G) as A. pose proof (rdg_within _ _ _ _ _ _ G) as W. unfold b_read_until.
    rewrite (proj2 (Nat.leb_le (b_begin b) (b_curr b))) by lia. cbn [negb].
    pose proof (rdg_reads _ _ _ _ _ _ G) as Rp.
    set (q := v_pos v + extent (firstn (v_ahead v) (skipn (b_begin b - b_offset b) cs))).
    assert (G2 : rdg (Buffered (b_sub b) (b_buffer b) (b_curr b) (b_end b) (b_offset b) (b_curr b)) (v_content v) q 0 vs cs).
    { destruct G. constructor; cbn [b_sub b_buffer b_begin b_end b_offset b_curr]; try assumption; try lia.
      unfold q. rewrite A, rg_pos0. replace (b_curr b - b_offset b) with ((b_begin b - b_offset b) + (b_curr b - b_begin b)) by lia.
      rewrite firstn_add, extent_app. lia. }
    destruct (until_loop_ok (total (b_sub b) + 2) _ _ _ _ _ Reading [] delim dyn G2) as (r & b' & v' & E & B & H').
    { cbn [b_end b_offset]. unfold total. rewrite (im_content _ _ _ _ _ _ Imp _ _ (rg_sub _ _ _ _ _ _ G) (rg_mode _ _ _ _ _ _ G)).
      rewrite (rg_content _ _ _ _ _ _ G). pose proof (ras_length _ _ _ (rg_reads _ _ _ _ _ _ G)) as L. rewrite skipn_length in L |- *. lia. }
    exists (prepend [] r), b', v'. split; [exact E|]. split; [|exact H'].
    destruct v as [m c p a]. cbn [v_content v_pos v_ahead] in *.
    eapply until_later with (rest := []) (q := q) (m2 := Reading); [exact Rp|reflexivity|cbn; lia|intros []| |exact B].
    cbn. rewrite Nat.add_0_r. reflexivity.
  Qed.

  (* ---- writing ---- *)

  Lemma bheld_length : forall b v vs, wtg b v vs -> length (bheld b) = b_end b - b_begin b.
  Proof. intros b v vs H. pose proof (wg_order _ _ _ H). unfold bheld. rewrite skipn_length, firstn_length_le by lia. reflexivity. Qed.

  Lemma shallow_flush_ok : forall b v vs, wtg b v vs -> exists success b', shallow_flush sub b = Some (success, b') /\ b_buffer b' = b_buffer b /\
    if success : bool then b_begin b' = 0 /\ b_end b' = 0 /\ exists vs', wtg b' v vs'
    else flaky = true /\ exists v' vs', wtg b' v' vs' /\ (reports = true -> v' = v).
  Proof.
    intros b v vs H. pose proof (wg_order _ _ _ H) as O. unfold shallow_flush.
    rewrite (proj2 (Nat.leb_le (b_begin b) (b_end b))), (proj2 (Nat.leb_le (b_end b) (length (b_buffer b)))) by lia. cbn [andb negb].
    destruct (im_step _ _ _ _ _ _ Imp _ vs (OpWrite (bheld b) 0) (wg_sub _ _ _ H) (wg_mode _ _ _ H)) as (r & s & vs' & E & G & H').
    change (skipn (b_begin b) (firstn (b_end b) (b_buffer b))) with (bheld b). rewrite E. cbn [obind].
    assert (Fail : forall n, n <= length (bheld b) -> forall v', v_mode vs' <> Reading -> v' = put_as w vs' (skipn n (bheld b)) ->
              wtg (Buffered s (b_buffer b) (b_begin b + n) (b_end b) (b_offset b) (b_curr b)) v' vs').
    { intros n Ln v' M' ->. pose proof (bheld_length _ _ _ H) as Lh. destruct H. constructor; cbn [b_sub b_buffer b_begin b_end b_offset b_curr]; try assumption; [lia|].
      f_equal. unfold bheld. cbn [b_begin b_end b_buffer]. rewrite skipn_add. reflexivity. }
    inversion G; subst.
    - exists true. eexists. split; [reflexivity|]. split; [reflexivity|]. split; [reflexivity|]. split; [reflexivity|].
      eexists. destruct H. constructor; cbn [b_sub b_buffer b_begin b_end b_offset b_curr]; [exact H'|cbn; congruence|assumption|lia| |assumption].
      unfold bheld at 2. cbn [b_begin b_end b_buffer skipn firstn]. rewrite put_as_put, app_nil_r. exact wg_view0.
    - exists false. eexists. split; [reflexivity|]. split; [reflexivity|]. split; [auto|].
      eexists. eexists. split; [apply Fail; [|cbn; congruence|reflexivity]|].
      + match goal with X : _ \/ _ |- _ => destruct X as [->|[_ ->]] end; lia.
      + intros Rt. match goal with X : _ \/ _ |- _ => destruct X as [->|[X _]] end; [|congruence]. rewrite put_as_put, firstn_skipn. symmetry. apply (wg_view _ _ _ H).
    - exists false. eexists. split; [reflexivity|]. split; [reflexivity|]. split; [auto|].
      eexists. eexists. split; [apply Fail; [|congruence|reflexivity]|]; [lia|congruence].
  Qed.

  Lemma b_write_loop_ok : forall fuel b v vs data data_2, wtg b v vs -> length data_2 <= length data ->
    length data_2 + (if b_end b =? 0 then 1 else 2) <= fuel ->
    exists r b', b_write_loop sub fuel b data data_2 = Some (r, b') /\
      ((r = ResWrote (length data) /\ exists vs', wtg b' (put_as w v data_2) vs') \/
       (flaky = true /\ exists k v' vs', r = ResWriteFailed (length data - length data_2 + k) /\ k < length data_2 /\ wtg b' v' vs' /\ (reports = true -> v' = put_as w v (firstn k data_2)))).
  Proof.
    induction fuel as [|fuel IH]; intros b v vs data data_2 H L Lf; [destruct (b_end b =? 0); lia|]. cbn [b_write_loop].
    pose proof (wg_order _ _ _ H) as O. rewrite (proj2 (Nat.leb_le (b_end b) (length (b_buffer b)))) by lia. cbn [negb].
    set (capacity := length (b_buffer b) - b_end b). set (n := min (length data_2) capacity).
    set (b1 := Buffered (b_sub b) (place (b_buffer b) (b_end b) (firstn n data_2)) (b_begin b) (b_end b + n) (b_offset b) (b_curr b)).
    assert (Ln : length (firstn n data_2) = n) by (apply firstn_length_le; unfold n; lia).
    assert (Lb : length (b_buffer b1) = length (b_buffer b)) by (unfold b1; cbn [b_buffer]; apply place_length; rewrite Ln; unfold n, capacity; lia).
    assert (H1 : wtg b1 (put_as w v (firstn n data_2)) vs).
    { constructor; try rewrite Lb; unfold b1; cbn [b_sub b_begin b_end b_offset b_curr]; try apply H.
      - unfold n, capacity. lia.
      - rewrite (wg_view _ _ _ H), put_as_put. f_equal. unfold bheld, b1. cbn [b_begin b_end b_buffer].
        rewrite <- Ln at 2. rewrite firstn_place by lia. rewrite skipn_app_le by (rewrite firstn_length_le; lia). reflexivity. }
    cbv zeta. destruct (Nat.leb_spec (length data_2) capacity) as [Lc|Lc].
    - do 2 eexists. split; [reflexivity|]. left. split; [reflexivity|]. exists vs. replace (firstn n data_2) with data_2 in H1; [exact H1|].
      symmetry. apply firstn_all2. unfold n. lia.
    - assert (En : n = capacity) by (unfold n; lia). assert (L2 : length (skipn n data_2) = length data_2 - n) by apply skipn_length.
      destruct (shallow_flush_ok _ _ _ H1) as (success & b2 & -> & Eb & F). cbn [obind]. destruct success.
      + destruct F as (Z1 & Z2 & vs2 & H2). rewrite (proj2 (Nat.eqb_eq (b_end b2) 0) Z2).
        destruct (IH b2 _ vs2 data (skipn n data_2) H2) as (r & b' & E & D).
        { lia. }
        { rewrite (proj2 (Nat.eqb_eq (b_end b2) 0) Z2). destruct (Nat.eqb_spec (b_end b) 0) as [Z|Z]; [|lia].
          pose proof (wg_buffer _ _ _ H). unfold capacity in *. lia. }
        exists r, b'. split; [exact E|]. destruct D as [[-> (vs' & D)]|(Fl & k & v' & vs' & -> & Lk & D & Rt)].
        * left. split; [reflexivity|]. exists vs'. rewrite put_as_put, firstn_skipn in D. exact D.
        * right. split; [exact Fl|]. exists (n + k), v', vs'. split; [f_equal; lia|]. split; [lia|]. split; [exact D|]. intros Q. rewrite (Rt Q), put_as_put, firstn_add. reflexivity.
      + destruct F as (Fl & v' & vs' & D & Rt). do 2 eexists. split; [reflexivity|]. right. split; [exact Fl|]. exists n, v', vs'.
        split; [f_equal; lia|]. split; [lia|]. split; [exact D|exact Rt].
  Qed.

  Lemma gstep_flush_fail : forall v v', flaky = true -> v_mode v <> Reading -> v_mode v' = Writing -> v_ahead v' = 0 ->
    v_mode v = Writing -> (reports = true -> v' = v) -> gstep w reports flaky v OpFlush ResFailed v'.
  Proof.
    intros v v' Fl M M' A' Mw Rt. destruct reports eqn:Q; [rewrite (Rt eq_refl); apply gstep_flush_failed; exact Fl|]. apply gstep_flush_lost; auto.
  Qed.

  Lemma wtg_sub : forall b v vs s vs', wtg b v vs -> R s vs' -> v_content vs' = v_content vs -> v_pos vs' = v_pos vs -> v_mode vs' <> Reading -> wtg (with_sub b s) v vs'.
  Proof.
    intros b v vs s vs' H H' C P M. destruct H. constructor; cbn; try assumption.
    rewrite wg_view0. unfold put_as. rewrite C, P. reflexivity.
  Qed.

  Lemma b_exec_ok : forall b v o, brel b v -> blegal v o ->
    exists r b' v', b_exec sub total more b o = Some (r, b') /\ bstep w reports flaky v o r v' /\ brel b' v'.
  Proof.
    intros b v [o|delim dyn] H Lg; [|exact (b_read_until_ok b v delim dyn H Lg)].
    assert (Lift : forall x : option (result * buffered T), (exists r b' v', x = Some (r, b') /\ gstep w reports flaky v o r v' /\ brel b' v') ->
              exists r b' v', (let? (r, b) := x in Some (Res r, b)) = Some (r, b') /\ bstep w reports flaky v (Op o) r v' /\ brel b' v').
    { intros x (r & b' & v' & -> & G & H'). exists (Res r), b', v'. split; [reflexivity|]. split; [constructor; exact G|exact H']. }
    cbn [blegal] in Lg. destruct o as [size dyn| |n| | |pos|data n_0| |]; cbn [legal] in Lg; cbn [b_exec].
    - apply Lift. apply b_read_ahead_ok; assumption.
    - destruct (brel_rdg b v H Lg) as (vs & cs & G & Nt). pose proof (rg_order _ _ _ _ _ _ G) as O. pose proof (rg_ahead _ _ _ _ _ _ G) as A.
      rewrite (proj2 (Nat.leb_le (b_begin b) (b_curr b))) by lia. do 3 eexists. split; [reflexivity|]. split.
      + constructor. apply gstep_advance_all. eexists. split; [apply (rdg_reads _ _ _ _ _ _ G)|reflexivity].
      + apply rdg_back with (vs := vs) (cs := cs); cbn [v_mode v_content v_pos v_ahead]; [|assumption|].
        * pose proof (rg_pos _ _ _ _ _ _ G) as P. destruct G. constructor; cbn [b_sub b_buffer b_begin b_end b_offset b_curr]; try assumption; try lia.
          rewrite P, A. replace (b_curr b - b_offset b) with ((b_begin b - b_offset b) + (b_curr b - b_begin b)) by lia. rewrite firstn_add, extent_app. lia.
        * intros N. destruct (Nt N) as (Z0 & Z1 & Z2 & Z3 & Z4). repeat split; cbn; assumption.
    - destruct Lg as [Lg Ln]. destruct (brel_rdg b v H Lg) as (vs & cs & G & Nt). pose proof (rg_order _ _ _ _ _ _ G) as O. pose proof (rg_ahead _ _ _ _ _ _ G) as A.
      rewrite (proj2 (Nat.leb_le (b_begin b) (b_curr b))), (proj2 (Nat.leb_le n (b_curr b - b_begin b))) by lia. cbn [andb]. do 3 eexists. split; [reflexivity|]. split.
      + constructor. apply gstep_advance. eexists. split; [apply (rdg_reads _ _ _ _ _ _ G)|reflexivity].
      + apply rdg_back with (vs := vs) (cs := cs); cbn [v_mode v_content v_pos v_ahead]; [|assumption|].
        * pose proof (rg_pos _ _ _ _ _ _ G) as P. destruct G. constructor; cbn [b_sub b_buffer b_begin b_end b_offset b_curr]; try assumption; try lia.
          rewrite P. replace (b_begin b + n - b_offset b) with ((b_begin b - b_offset b) + n) by lia. rewrite firstn_add, extent_app. lia.
        * intros N. destruct (Nt N) as (Z0 & Z1 & Z2 & Z3 & Z4). repeat split; cbn; try assumption. lia.
    - destruct (brel_rdg b v H Lg) as (vs & cs & G & Nt). pose proof (rg_order _ _ _ _ _ _ G) as O.
      rewrite (proj2 (Nat.leb_le (b_offset b) (b_begin b))) by lia. cbn [negb].
      destruct (rdg_shift _ _ _ _ _ _ G) as (s & vs1 & -> & P1 & M1 & G1). cbn [obind].
      destruct (im_step _ _ _ _ _ _ Imp _ vs1 OpDiscard (rg_sub _ _ _ _ _ _ G1) (rg_mode _ _ _ _ _ _ G1)) as (r & s' & vs2 & E & Gs & H'). cbn [b_sub] in E.
      rewrite E. cbn [obind]. inversion Gs; subst.
      + do 3 eexists. split; [reflexivity|]. split; [constructor; apply gstep_discard|]. unfold brel. cbn [v_mode b_sub b_buffer b_begin b_end b_offset b_curr].
        repeat (split; [reflexivity|]). split; [apply (rg_buffer _ _ _ _ _ _ G)|]. rewrite (rg_content _ _ _ _ _ _ G1), P1 in H'. exact H'.
      + do 3 eexists. split; [reflexivity|]. split; [constructor; apply gstep_discard_failed; auto|].
        apply rdg_back with (vs := vs2) (cs := skipn (b_begin b - b_offset b) cs); [|assumption|].
        * destruct G1. constructor; cbn [b_sub b_buffer b_begin b_end b_offset b_curr] in *; assumption.
        * intros N. destruct (Nt N) as (Z0 & Z1 & Z2 & Z3 & Z4). repeat split; cbn; try assumption. congruence.
    - destruct (brel_rdg b v H Lg) as (vs & cs & G & Nt). pose proof (rg_order _ _ _ _ _ _ G) as O.
      rewrite (proj2 (Nat.leb_le (b_offset b) (b_begin b))) by lia. cbn [negb].
      destruct (rdg_shift _ _ _ _ _ _ G) as (s & vs1 & -> & P1 & M1 & G1). cbn [obind].
      destruct (im_step _ _ _ _ _ _ Imp _ vs1 OpTellRead (rg_sub _ _ _ _ _ _ G1) (rg_mode _ _ _ _ _ _ G1)) as (r & s' & vs2 & E & Gs & H'). cbn [b_sub] in E.
      rewrite E. cbn [obind]. assert (vs2 = vs1) as -> by (inversion Gs; reflexivity). do 3 eexists. split; [reflexivity|]. split.
      + constructor. inversion Gs; subst; [rewrite P1|]; constructor; auto.
      + apply rdg_back with (vs := vs1) (cs := skipn (b_begin b - b_offset b) cs); [|assumption|].
        * destruct G1. constructor; cbn [b_sub b_buffer b_begin b_end b_offset b_curr] in *; assumption.
        * intros N. destruct (Nt N) as (Z0 & Z1 & Z2 & Z3 & Z4). repeat split; cbn; try assumption. congruence.
    - destruct (brel_rdg b v H Lg) as (vs & cs & G & Nt).
      destruct (im_step _ _ _ _ _ _ Imp _ vs (OpSeek pos) (rg_sub _ _ _ _ _ _ G) (rg_mode _ _ _ _ _ _ G)) as (r & s' & vs2 & -> & Gs & H').
      cbn [obind]. inversion Gs; subst.
      + do 3 eexists. split; [reflexivity|]. split; [constructor; apply gstep_seek|]. unfold brel. cbn [v_mode b_sub b_buffer b_begin b_end b_offset b_curr].
        repeat (split; [reflexivity|]). split; [apply (rg_buffer _ _ _ _ _ _ G)|]. rewrite (rg_content _ _ _ _ _ _ G) in H'. exact H'.
      + do 3 eexists. split; [reflexivity|]. split; [constructor; apply gstep_seek_failed; auto|].
        apply rdg_back with (vs := vs2) (cs := cs); [|assumption|exact Nt]. destruct G. constructor; cbn [with_sub b_sub b_buffer b_begin b_end b_offset b_curr] in *; assumption.
    - apply Lift. destruct (brel_wtg b v H Lg) as (vs & W). unfold b_write. rewrite (proj2 (Nat.ltb_lt 0 (length (b_buffer b))) (wg_buffer _ _ _ W)).
      destruct (b_write_loop_ok (length data + 2) b _ vs data data W (le_n _)) as (r & b' & E & D); [destruct (b_end b =? 0); lia|].
      exists r, b'. destruct D as [[-> (vs' & D)]|(Fl & k & v' & vs' & -> & Lk & D & Rt)].
      + exists (put_as w v data). split; [exact E|]. split; [apply gstep_write|]. apply (wtg_brel _ _ _ D).
      + exists v'. split; [exact E|]. split; [|apply (wtg_brel _ _ _ D)]. rewrite Nat.sub_diag. cbn [Nat.add].
        destruct reports eqn:Q.
        * rewrite (Rt eq_refl). apply (gstep_write_failed w true _ v data n_0 k k Fl Lk). left. reflexivity.
        * destruct (wtg_mode _ _ _ D). apply gstep_write_lost; auto.
    - destruct (v_mode v) eqn:Em; [|contradiction|].
      + unfold brel in H. rewrite Em in H. destruct H as (Z1 & Z2 & Z3 & Z4 & L & H). rewrite Z3, Z4. cbn [Nat.eqb andb negb].
        destruct (im_idle _ _ _ _ _ _ Imp _ _ H Em) as (s1 & s2 & E1 & E2 & H2). unfold shallow_flush. rewrite Z1, Z2.
        rewrite (proj2 (Nat.leb_le 0 (length (b_buffer b)))) by lia. cbn [Nat.leb andb negb firstn skipn]. rewrite E1. cbn [obind b_sub]. rewrite E2. cbn [obind].
        pose proof (im_ahead _ _ _ _ _ _ Imp _ _ H ltac:(congruence)) as A.
        do 3 eexists. split; [reflexivity|]. split; [constructor; apply gstep_flush|]. unfold brel, with_sub. cbn [v_mode b_sub b_buffer b_begin b_end b_offset b_curr].
        do 5 (split; [assumption || reflexivity|]). destruct v as [m c p a]. cbn in *. subst. exact H2.
      + unfold brel in H. rewrite Em in H. destruct H as (vs & W). destruct (wg_zero _ _ _ W) as [Z3 Z4]. rewrite Z3, Z4. cbn [Nat.eqb andb negb].
        destruct (shallow_flush_ok _ _ _ W) as (success & b' & -> & Eb & F). cbn [obind]. destruct success.
        * destruct F as (Z1 & Z2 & vs' & W'). destruct (im_step _ _ _ _ _ _ Imp _ vs' OpFlush (wg_sub _ _ _ W') (wg_mode _ _ _ W')) as (r & s & vs2 & -> & Gs & H2). cbn [obind].
          assert (Ev : v = View Writing (v_content vs') (v_pos vs') 0).
          { rewrite (wg_view _ _ _ W'). unfold bheld. rewrite Z1, Z2. cbn [skipn firstn]. apply put_as_nil. }
          destruct (wg_zero _ _ _ W') as [Z5 Z6].
          inversion Gs; subst.
          -- do 3 eexists. split; [reflexivity|]. split; [constructor; apply gstep_flush|]. unfold brel, with_sub. cbn [v_mode v_content v_pos b_sub b_buffer b_begin b_end b_offset b_curr].
             do 4 (split; [assumption|]). split; [apply (wg_buffer _ _ _ W')|exact H2].
          -- do 3 eexists. split; [reflexivity|]. split; [constructor; apply gstep_flush_failed; auto|]. eapply wtg_brel, wtg_sub; [exact W'|exact H2|reflexivity|reflexivity|apply (wg_mode _ _ _ W')].
          -- exists (Res ResFailed), (with_sub b' s), (put_as w vs2 (bheld b')). split; [reflexivity|]. split; [constructor; apply gstep_flush_lost; auto|].
             apply (wtg_brel _ _ vs2). destruct W'. constructor; cbn; try assumption; try congruence. reflexivity.
        * destruct F as (Fl & v' & vs' & W' & Rt). destruct (im_step _ _ _ _ _ _ Imp _ vs' OpFlush (wg_sub _ _ _ W') (wg_mode _ _ _ W')) as (r & s & vs2 & -> & Gs & H2). cbn [obind].
          destruct (wtg_mode _ _ _ W') as [Mw Aw].
          assert (Q : exists v2, (reports = true -> v2 = v) /\ wtg (with_sub b' s) v2 vs2).
          { inversion Gs; subst.
            - exists v'. split; [exact Rt|]. eapply wtg_sub; [exact W'|exact H2|reflexivity|reflexivity|cbn; congruence].
            - exists v'. split; [exact Rt|]. eapply wtg_sub; [exact W'|exact H2|reflexivity|reflexivity|apply (wg_mode _ _ _ W')].
            - exists (put_as w vs2 (bheld b')). split; [congruence|]. destruct W'. constructor; cbn; try assumption; try congruence. reflexivity. }
          destruct Q as (v2 & Rt2 & W2). destruct (wtg_mode _ _ _ W2) as [Mw2 Aw2].
          do 3 eexists. split; [reflexivity|]. split; [constructor; eapply gstep_flush_fail; [exact Fl|congruence|exact Mw2|exact Aw2|exact Em|exact Rt2]|]. apply (wtg_brel _ _ _ W2).
    - assert (Tell : forall b1 v1 vs1, wtg b1 v1 vs1 -> b_begin b1 = b_end b1 -> v_content v1 = v_content v -> v_pos v1 = v_pos v ->
          (v_mode v = Neutral -> neutral b1 vs1) -> v_mode v <> Reading -> v_ahead v = 0 ->
          exists r b' v', (let? (r, s) := sub (b_sub b1) OpTellWrite in Some (Res r, with_sub b1 s)) = Some (r, b') /\ bstep w reports flaky v (Op OpTellWrite) r v' /\ brel b' v').
      { intros b1 v1 vs1 W Eb Ec Ep Nt Mr Av. destruct (im_step _ _ _ _ _ _ Imp _ vs1 OpTellWrite (wg_sub _ _ _ W) (wg_mode _ _ _ W)) as (r & s & vs2 & -> & Gs & H2). cbn [obind].
        assert (Ev : v_content v1 = v_content vs1 /\ v_pos v1 = v_pos vs1).
        { rewrite (wg_view _ _ _ W). unfold bheld. rewrite Eb, skipn_all2 by (rewrite firstn_length; lia). rewrite put_as_nil. auto. }
        destruct Ev as [Ev1 Ev2]. pose proof (wg_buffer _ _ _ W) as Lb.
        assert (Back : vs2 = vs1 -> brel (with_sub b1 s) v).
        { intros ->. destruct (v_mode v) eqn:Em; [|contradiction|].
          - destruct (Nt eq_refl) as (Z0 & Z1 & Z2 & Z3 & Z4). unfold brel. rewrite Em. unfold with_sub. cbn. do 5 (split; [assumption|]).
            pose proof (im_ahead _ _ _ _ _ _ Imp _ _ H2 ltac:(congruence)) as A2. destruct v as [m c p a], vs1 as [m2 c2 p2 a2]. cbn in *. subst. exact H2.
          - assert (v = v1) as ->.
            { destruct (wtg_mode _ _ _ W) as [M1 A1]. destruct v as [m c p a], v1 as [m1 c1 p1 a1]. cbn in *. congruence. }
            eapply wtg_brel, wtg_sub; [exact W|exact H2|reflexivity|reflexivity|apply (wg_mode _ _ _ W)]. }
        inversion Gs; subst.
        - do 3 eexists. split; [reflexivity|]. split; [|apply Back; reflexivity]. constructor. rewrite <- Ev2, Ep. apply gstep_tell_write.
        - do 3 eexists. split; [reflexivity|]. split; [|apply Back; reflexivity]. constructor. apply gstep_tell_write_failed. auto.
        - assert (Mv : v_mode v = Writing).
          { destruct (v_mode v) eqn:Em; [|contradiction|reflexivity]. destruct (Nt eq_refl) as [Z0 _]. congruence. }
          do 2 eexists. exists (put_as w vs2 (bheld b1)). split; [reflexivity|]. split; [constructor; apply gstep_tell_write_lost; auto|].
          apply (wtg_brel _ _ vs2). destruct W. constructor; cbn; try assumption; try congruence. reflexivity. }
      destruct (brel_wtg b v H Lg) as (vs & W).
      assert (Av : v_ahead v = 0).
      { unfold brel in H. destruct (v_mode v) eqn:Em; [|contradiction|destruct H as [? H]; apply (wtg_mode _ _ _ H)].
        destruct H as (_ & _ & _ & _ & _ & H). apply (im_ahead _ _ _ _ _ _ Imp _ _ H). congruence. }
      destruct (Nat.eqb_spec (b_begin b) (b_end b)) as [Eb|Eb]; cbn [obind].
      + destruct (v_mode v) eqn:Em; [|contradiction|].
        * unfold brel in H. rewrite Em in H. destruct H as (Z1 & Z2 & Z3 & Z4 & L & H).
          apply (Tell b (put_as w v []) v); rewrite ?Em; auto; try (rewrite put_as_nil; reflexivity); try congruence; [|intros _; repeat split; assumption].
          constructor; auto; [congruence|lia|]. unfold bheld. rewrite Z1, Z2. reflexivity.
        * apply (Tell b _ vs W Eb); rewrite ?Em; auto; congruence.
      + assert (Em : v_mode v = Writing).
        { unfold brel in H. destruct (v_mode v) eqn:Em; [|contradiction|reflexivity]. destruct H as (Z1 & Z2 & _). congruence. }
        destruct (shallow_flush_ok _ _ _ W) as (success & b' & -> & Eb' & F). cbn [obind]. destruct success.
        * destruct F as (Z1 & Z2 & vs' & W'). apply (Tell b' _ vs' W'); auto; congruence.
        * destruct F as (Fl & v' & vs' & W' & Rt). do 3 eexists. split; [reflexivity|]. split; [|apply (wtg_brel _ _ _ W')]. constructor.
          destruct (wtg_mode _ _ _ W') as [Mw Aw]. destruct reports eqn:Q; [|apply gstep_tell_write_lost; auto].
          rewrite (Rt eq_refl). replace (View Writing (v_content v) (v_pos v) 0) with v; [apply gstep_tell_write_failed; exact Fl|]. destruct v as [m c p a]. cbn in *. congruence.
  Qed.
End Buf.
