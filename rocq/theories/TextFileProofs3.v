(* Lemmas on text files: the files of applications. *)
From Coq Require Import List Arith Bool Lia.
From Verif Require Import ArrLib NewlineModel NewlineSpec NewlineProofs WinFileModel WinFileSpec WinFileProofs TextFileModel TextFileSpec TextFileProofs TextFileProofs2.
Import ListNotations.

(* ---- what is required of the implementation ---- *)

Record bimplements {T : Type} (w reports flaky lines : bool) (impl : T -> bop -> option (bres * T)) (file_of : T -> list nat) (R : T -> view -> Prop) : Prop := {
  bi_step : forall s v o, R s v -> blegal v o -> lines = true \/ (exists o', o = Op o') ->
    exists r s' v', impl s o = Some (r, s') /\ bstep w reports flaky v o r v' /\ R s' v';
  bi_content : forall s v, R s v -> v_mode v <> Writing -> file_of s = v_content v;
  bi_ahead : forall s v, R s v -> v_mode v <> Reading -> v_ahead v = 0;
  bi_within : forall s v cs, R s v -> reads_as w (skipn (v_pos v) (v_content v)) cs -> v_ahead v <= length cs
}.

Lemma unbuffered_implements : forall {T} w reports flaky (sub : T -> op -> option (result * T)) file_of R, implements w reports flaky sub file_of R ->
  bimplements w reports flaky false (unbuffered sub) file_of R.
Proof.
  intros T w reports flaky sub file_of R Imp. constructor; [|apply Imp..].
  intros s v o H Lg [C|[o' ->]]; [discriminate|]. destruct (im_step _ _ _ _ _ _ Imp s v o' H Lg) as (r & s' & v' & E & G & H').
  exists (Res r), s', v'. cbn [unbuffered]. rewrite E. split; [reflexivity|]. split; [constructor; exact G|exact H'].
Qed.

Lemma buffered_implements : forall {T} w reports flaky (sub : T -> op -> option (result * T)) file_of R more, implements w reports flaky sub file_of R ->
  bimplements w reports flaky true (b_exec sub (fun s => length (file_of s)) more) (fun b => file_of (b_sub b)) (brel w R).
Proof.
  intros T w reports flaky sub file_of R more Imp. constructor.
  - intros b v o H Lg _. eapply b_exec_ok; eassumption.
  - intros b v H M. destruct (brel_rdg _ _ _ _ _ _ Imp _ _ H M) as (vs & cs & G & _). rewrite <- (rg_content _ _ _ _ _ _ _ _ G).
    apply (im_content _ _ _ _ _ _ Imp _ _ (rg_sub _ _ _ _ _ _ _ _ G) (rg_mode _ _ _ _ _ _ _ _ G)).
  - intros b v H M. unfold brel in H. destruct (v_mode v) eqn:E; [|contradiction|].
    + apply (im_ahead _ _ _ _ _ _ Imp _ _ (proj2 (proj2 (proj2 (proj2 (proj2 H)))))). congruence.
    + destruct H as [vs H]. apply (wtg_mode _ _ _ _ _ H).
  - intros b v cs H Rc. destruct (v_mode v) eqn:E.
    1, 2: destruct (brel_rdg _ _ _ _ _ _ Imp _ _ H) as (vs & cs' & G & _); [congruence|];
      pose proof (rdg_reads _ _ _ _ _ _ _ _ G) as Rc'; rewrite (ras_det _ _ _ _ Rc Rc'); pose proof (rdg_within _ _ _ _ _ _ Imp _ _ _ _ _ _ G) as W;
      pose proof (rg_order _ _ _ _ _ _ _ _ G) as O; rewrite (rg_ahead _ _ _ _ _ _ _ _ G), skipn_length; lia.
    unfold brel in H. rewrite E in H. destruct H as [vs H]. rewrite (proj2 (wtg_mode _ _ _ _ _ H)). lia.
Qed.

(* a fresh file *)
Lemma buffered_init_rel : forall {T} w (R : T -> view -> Prop) more (s : T) buffer c p, R s (View Neutral c p 0) -> brel w R (buffered_init more s buffer) (View Neutral c p 0).
Proof.
  intros T w R more s buffer c p H. unfold brel, buffered_init. cbn. do 4 (split; [reflexivity|]). split; [|exact H].
  destruct (Nat.leb_spec (length buffer) 0) as [L|L]; [pose proof (grow_length more buffer); lia|exact L].
Qed.

Section TopFile.
  Context {T : Type}.
  Variables (w reports flaky lines dyn : bool) (impl : T -> bop -> option (bres * T)) (file_of : T -> list nat) (Q : T -> view -> Prop) (more : nat -> nat).
  Hypothesis Bi : bimplements w reports flaky lines impl file_of Q.
  Let total (s : T) : nat := length (file_of s).

  Record trel (t : tfile T) (v : tview) (iv : view) (cs : list (nat * nat)) : Prop := {
    tr_impl : Q (t_impl t) iv;
    tr_content : v_content iv = tv_content v;
    tr_reads : reads_as w (skipn (v_pos iv) (tv_content v)) cs;
    tr_pos : tv_pos v = v_pos iv + extent (firstn (v_ahead iv) cs);
    tr_writing : t_writing t = true <-> v_mode iv = Writing;
    tr_dirty : t_writing t = true -> tv_dirty v = true;
    tr_reading : v_mode iv = Reading -> t_reading t = true;
    tr_both : t_writing t = true -> t_reading t = false
  }.
  Definition tr (t : tfile T) (v : tview) : Prop := exists iv cs, trel t v iv cs.

  Lemma tr_settled : forall t v, tr t v -> tv_dirty v = false -> file_of (t_impl t) = tv_content v.
  Proof.
    intros t v (iv & cs & H) D. rewrite <- (tr_content _ _ _ _ H). apply (bi_content _ _ _ _ _ _ _ Bi _ _ (tr_impl _ _ _ _ H)).
    intros M. apply (tr_writing _ _ _ _ H) in M. apply (tr_dirty _ _ _ _ H) in M. congruence.
  Qed.

  (* when everything that was read is advanced past *)
  Lemma tr_plain : forall s m c p wr rd dirty, Q s (View m c p 0) -> (wr = true <-> m = Writing) -> (wr = true -> dirty = true) -> (m = Reading -> rd = true) ->
    (wr = true -> rd = false) -> tr (TFile s rd wr) (TView c p dirty).
  Proof.
    intros s m c p wr rd dirty H A1 A2 A3 A4. destruct (ras_exists w (skipn p c)) as [cs Rc]. exists (View m c p 0), cs.
    constructor; cbn; try assumption; try reflexivity. lia.
  Qed.

  Lemma adv_ok : forall t v, tr t v -> t_writing t = false -> exists s m, impl (t_impl t) (Op OpAdvanceAll) = Some (Res ResDone, s) /\
    Q s (View m (tv_content v) (tv_pos v) 0) /\ m <> Writing /\ (m = Reading -> t_reading t = true).
  Proof.
    intros t v (iv & cs & H) W. assert (M : v_mode iv <> Writing) by (intros M; apply (tr_writing _ _ _ _ H) in M; congruence).
    destruct (bi_step _ _ _ _ _ _ _ Bi _ iv (Op OpAdvanceAll) (tr_impl _ _ _ _ H) M) as (r & s & v' & E & G & H'); [right; eauto|].
    inversion G as [? ? r0 ? G'| |]; subst. inversion G'; subst.
    match goal with X : moved_as _ _ _ _ |- _ => apply moved_as_of with (cs := cs) in X; [|rewrite (tr_content _ _ _ _ H); apply (tr_reads _ _ _ _ H)] end.
    subst v'. exists s, (v_mode iv). split; [exact E|]. split; [|split; [exact M|apply (tr_reading _ _ _ _ H)]].
    rewrite (tr_content _ _ _ _ H), Nat.sub_diag, <- (tr_pos _ _ _ _ H) in H'. exact H'.
  Qed.

  (* neither reading nor writing, or writing *)
  Lemma not_reading : forall t v, tr t v -> t_reading t = false -> exists m, Q (t_impl t) (View m (tv_content v) (tv_pos v) 0) /\ m <> Reading /\ (t_writing t = true <-> m = Writing).
  Proof.
    intros t v (iv & cs & H) Rd. assert (M : v_mode iv <> Reading) by (intros M; apply (tr_reading _ _ _ _ H) in M; congruence).
    pose proof (bi_ahead _ _ _ _ _ _ _ Bi _ _ (tr_impl _ _ _ _ H) M) as A. exists (v_mode iv). split; [|split; [exact M|apply (tr_writing _ _ _ _ H)]].
    pose proof (tr_impl _ _ _ _ H) as X. pose proof (tr_pos _ _ _ _ H) as P. pose proof (tr_content _ _ _ _ H) as C. rewrite A in P. cbn in P. rewrite Nat.add_0_r in P.
    destruct iv as [m c p a]. cbn in *. subst. exact X.
  Qed.

  Lemma stop_writing_ok : forall t v, tr t v -> t_writing t = true -> exists success t', stop_writing impl t = Some (success, t') /\ t_reading t' = false /\
    if success : bool then t_writing t' = false /\ tr t' (TView (tv_content v) (tv_pos v) false)
    else flaky = true /\ exists v', tr t' v' /\ tv_dirty v' = true /\ (reports = true -> v' = v).
  Proof.
    intros t v H Wt. pose proof H as (iv0 & cs0 & H0). pose proof (tr_both _ _ _ _ H0 Wt) as Rt. pose proof (tr_dirty _ _ _ _ H0 Wt) as Dt. clear iv0 cs0 H0.
    destruct (not_reading t v H Rt) as (m & X & M & Mw). apply Mw in Wt as Em. subst m. clear Mw. unfold stop_writing. rewrite Rt, Wt. cbn [andb negb].
    destruct (bi_step _ _ _ _ _ _ _ Bi _ _ (Op OpFlush) X ltac:(cbn; congruence)) as (r & s & v' & -> & G & H'); [right; eauto|]. cbn [obind].
    inversion G as [? ? r0 ? G'| |]; subst. inversion G'; subst; cbn [v_content v_pos] in *.
    - exists true. eexists. split; [reflexivity|]. split; [reflexivity|]. split; [reflexivity|]. apply (tr_plain s Neutral); try assumption; try congruence. split; congruence.
    - exists false. eexists. split; [reflexivity|]. split; [reflexivity|]. split; [auto|]. exists v. split; [|auto]. destruct v as [c p d]. cbn in *. apply (tr_plain s Writing); try assumption; try congruence. tauto.
    - exists false. eexists. split; [reflexivity|]. split; [reflexivity|]. split; [auto|]. exists (TView (v_content v') (v_pos v') true). split; [|split; [reflexivity|congruence]].
      destruct v' as [m c p a]. cbn in *. subst. apply (tr_plain s Writing); try assumption; try congruence; tauto.
  Qed.

  Lemma for_reading_ok : forall t v, tr t v -> exists success t', for_reading impl t = Some (success, t') /\
    if success : bool then t_reading t' = true /\ t_writing t' = false /\ tr t' (TView (tv_content v) (tv_pos v) false)
    else tv_dirty v = true /\ flaky = true /\ exists v', tr t' v' /\ tv_dirty v' = true /\ (reports = true -> v' = v).
  Proof.
    intros t v H. unfold for_reading. destruct (t_writing t) eqn:Wt.
    - destruct (stop_writing_ok t v H Wt) as (success & t' & -> & Rt & F). cbn [obind]. destruct success.
      + destruct F as [Wt' (iv & cs & F)]. exists true. eexists. split; [reflexivity|]. split; [reflexivity|]. split; [exact Wt'|].
        exists iv, cs. destruct F. constructor; cbn in *; try assumption; congruence.
      + exists false, t'. split; [reflexivity|]. split; [|exact F]. destruct H as (iv & cs & H). apply (tr_dirty _ _ _ _ H Wt).
    - exists true. eexists. split; [reflexivity|]. split; [reflexivity|]. split; [reflexivity|]. destruct H as (iv & cs & H). exists iv, cs. destruct H.
      rewrite Wt in *. constructor; cbn in *; try assumption; try congruence.
  Qed.

  Lemma do_read_some_ok : forall t v size, tr t v -> t_reading t = true -> t_writing t = false -> tv_dirty v = false ->
    exists r t', do_read_some impl dyn t size = Some (r, t') /\ t_reading t' = true /\ t_writing t' = false /\
      match r with
      | Some chars => exists cs, reads_as w (skipn (tv_pos v) (tv_content v)) cs /\ chars = map fst (firstn (length chars) cs) /\ length chars <= size /\
          length chars <= length cs /\ (size = 0 \/ chars <> [] \/ at_end w dyn cs) /\ tr t' (after v (firstn (length chars) cs) false)
      | None => flaky = true /\ tr t' v
      end.
  Proof.
    intros t v size H Rt Wt Dt. unfold do_read_some. rewrite Wt. destruct (adv_ok t v H Wt) as (s & m & -> & X & M & _). cbn [obind].
    destruct (bi_step _ _ _ _ _ _ _ Bi _ _ (Op (OpReadAhead size dyn)) X M) as (r & s' & v' & -> & G & H'); [right; eauto|]. cbn [obind].
    inversion G as [? ? r0 ? G'| |]; subst. inversion G'; subst; cbn [v_content v_pos v_ahead skipn Nat.add] in *.
    - do 2 eexists. split; [reflexivity|]. rewrite Rt. do 2 (split; [reflexivity|]). exists cs. pose proof (bi_within _ _ _ _ _ _ _ Bi _ _ cs H' ltac:(assumption)) as L. cbn [v_ahead] in L.
      do 5 (split; [assumption|]). exists (View Reading (tv_content v) (tv_pos v) (length chars)), cs. constructor; cbn; try assumption; try reflexivity; try congruence. split; congruence.
    - do 2 eexists. split; [reflexivity|]. rewrite Rt. do 2 (split; [reflexivity|]). split; [auto|]. destruct v as [c p d]. apply (tr_plain s' Reading); cbn in *; try assumption; try congruence. split; congruence.
  Qed.

  Definition got_from (v : tview) (chars : list nat) (t' : tfile T) (cs : list (nat * nat)) : Prop :=
    reads_as w (skipn (tv_pos v) (tv_content v)) cs /\ chars = map fst (firstn (length chars) cs) /\ length chars <= length cs /\
    tr t' (after v (firstn (length chars) cs) false).

  (* characters, and then more characters *)
  Lemma got_then : forall v cs chars t1 more t2 cs2, got_from v chars t1 cs -> got_from (after v (firstn (length chars) cs) false) more t2 cs2 ->
    cs2 = skipn (length chars) cs /\ got_from v (chars ++ more) t2 cs.
  Proof.
    intros v cs chars t1 more2 t2 cs2 (R1 & C1 & L1 & _) (R2 & C2 & L2 & H2). unfold after in R2, H2. cbn [tv_pos tv_content] in R2, H2.
    assert (E : cs2 = skipn (length chars) cs) by (eapply ras_det; [exact R2|]; apply ras_further, R1). split; [exact E|]. subst cs2.
    split; [exact R1|]. rewrite app_length, firstn_add. split; [rewrite map_app; congruence|]. split; [rewrite skipn_length in L2; lia|].
    unfold after. rewrite extent_app, Nat.add_assoc. exact H2.
  Qed.

  Lemma read_rounds_ok : forall fuel t v size got, tr t v -> t_reading t = true -> t_writing t = false -> tv_dirty v = false -> size < fuel ->
    exists success chars t' cs, read_rounds impl dyn fuel t size got = Some (success, got ++ chars, t') /\ t_reading t' = true /\ t_writing t' = false /\
      got_from v chars t' cs /\ length chars <= size /\ (success = false -> flaky = true) /\ (success = true -> length chars = size \/ at_end w dyn (skipn (length chars) cs)).
  Proof.
    induction fuel as [|fuel IH]; intros t v size got H Rt Wt Dt Lf; [lia|]. cbn [read_rounds].
    destruct (do_read_some_ok t v size H Rt Wt Dt) as (r & t1 & -> & Rt1 & Wt1 & F). cbn [obind]. destruct r as [chars|].
    - destruct F as (cs & R1 & C1 & L1 & L2 & E1 & H1). rewrite (proj2 (Nat.leb_le (length chars) size) L1). cbn [negb].
      assert (G1 : got_from v chars t1 cs) by (split; [|split; [|split]]; assumption).
      destruct (Nat.ltb_spec 0 (length chars)) as [L0|L0]; cbn [andb]; [destruct (Nat.ltb_spec (length chars) size) as [Ls|Ls]|].
      + destruct (IH t1 _ (size - length chars) (got ++ chars) H1 Rt1 Wt1 eq_refl) as (success & chars2 & t2 & cs2 & E & Rt2 & Wt2 & G2 & L3 & Fl & Q3); [lia|].
        destruct (got_then _ _ _ _ _ _ _ G1 G2) as [-> G3]. exists success, (chars ++ chars2), t2, cs. rewrite app_assoc. split; [exact E|].
        do 3 (split; [assumption|]). rewrite app_length. split; [lia|]. split; [exact Fl|]. intros S1. destruct (Q3 S1) as [Q4|Q4]; [left; lia|right]. rewrite skipn_add in Q4. exact Q4.
      + exists true, chars, t1, cs. split; [reflexivity|]. do 4 (split; [assumption|]). split; [discriminate|]. intros _. left. lia.
      + exists true, chars, t1, cs. split; [reflexivity|]. do 4 (split; [assumption|]). split; [discriminate|]. intros _. destruct chars as [|x chars]; [|cbn in L0; lia]. cbn [length skipn].
        destruct E1 as [E1|[E1|E1]]; [left; lia|congruence|right; exact E1].
    - destruct F as [Fl F]. destruct (ras_exists w (skipn (tv_pos v) (tv_content v))) as [cs Rc]. exists false, [], t1, cs. rewrite app_nil_r. split; [reflexivity|]. do 2 (split; [assumption|]).
      split; [|split; [cbn; lia|split; [auto|discriminate]]]. split; [exact Rc|]. split; [reflexivity|]. split; [cbn; lia|]. unfold after. cbn. rewrite Nat.add_0_r. destruct v as [c p d]. cbn in *. subst d. exact F.
  Qed.

  (* once it is reading *)
  Lemma for_reading_again : forall t, t_reading t = true -> t_writing t = false -> for_reading impl t = Some (true, t).
  Proof. intros [s rd wr] Rt Wt. cbn in Rt, Wt. subst. reflexivity. Qed.
  Lemma try_read_again : forall t size, t_reading t = true -> t_writing t = false -> try_read impl dyn t size = read_rounds impl dyn (size + 1) t size [].
  Proof. intros t size Rt Wt. unfold try_read. rewrite for_reading_again by assumption. reflexivity. Qed.

  Lemma read_all_rounds_ok : forall fuel t v got cs, tr t v -> t_reading t = true -> t_writing t = false -> tv_dirty v = false ->
    reads_as w (skipn (tv_pos v) (tv_content v)) cs -> length cs < fuel ->
    exists success chars t' cs', read_all_rounds impl dyn more fuel t got = Some (success, got ++ chars, t') /\ got_from v chars t' cs' /\ (success = false -> flaky = true) /\
      (success = true -> at_end w dyn (skipn (length chars) cs')).
  Proof.
    induction fuel as [|fuel IH]; intros t v got cs H Rt Wt Dt Rc Lf; [lia|]. cbn [read_all_rounds]. rewrite try_read_again by assumption.
    set (size := 256 + more (length got)).
    destruct (read_rounds_ok (size + 1) t v size [] H Rt Wt Dt ltac:(lia)) as (success & chars & t1 & cs1 & -> & Rt1 & Wt1 & G1 & L1 & Fl & Q1). cbn [obind app].
    assert (cs1 = cs) as -> by (eapply ras_det; [apply G1|exact Rc]). destruct success.
    - destruct (Nat.ltb_spec 0 (length chars)) as [L0|L0].
      + pose proof G1 as (_ & _ & Lc & H1).
        destruct (IH t1 _ (got ++ chars) (skipn (length chars) cs) H1 Rt1 Wt1 eq_refl) as (success & chars2 & t2 & cs2 & E & G2 & Fl2 & Q2).
        { apply ras_further. exact Rc. }
        { rewrite skipn_length. lia. }
        destruct (got_then _ _ _ _ _ _ _ G1 G2) as [-> G3]. exists success, (chars ++ chars2), t2, cs. rewrite app_assoc. split; [exact E|]. split; [exact G3|]. split; [exact Fl2|].
        intros S1. specialize (Q2 S1). rewrite skipn_add in Q2. rewrite app_length. exact Q2.
      + exists true, chars, t1, cs. split; [reflexivity|]. split; [exact G1|]. split; [discriminate|]. intros _. destruct (Q1 eq_refl) as [Q2|Q2]; [|exact Q2]. unfold size in Q2. lia.
    - exists false, chars, t1, cs. split; [reflexivity|]. split; [exact G1|]. split; [exact Fl|discriminate].
  Qed.

  Definition allowed (v : tview) (o : top) : Prop := o = ReadLine -> lines = true.

  Lemma lost_or_failed : forall v o v', (forall data, o <> Write data) -> tv_dirty v = true -> flaky = true -> tv_dirty v' = true -> (reports = true -> v' = v) -> tstep w reports flaky dyn v o Failed v'.
  Proof.
    intros v o v' Nw D Fl D' Rt. destruct reports eqn:Rp.
    - rewrite (Rt eq_refl). destruct v as [c p d]. cbn in D. subst d. apply (tstep_failed w true _ dyn (TView c p true) o true Fl Nw). discriminate.
    - apply tstep_lost; auto.
  Qed.
  Lemma lost_or_failed_read : forall v o v', o = ReadAll \/ (exists size, o = Read size) \/ o = ReadLine -> tv_dirty v = true -> flaky = true -> tv_dirty v' = true -> (reports = true -> v' = v) ->
    tstep w reports flaky dyn v o (FailedRead []) v'.
  Proof.
    intros v o v' Ho D Fl D' Rt. destruct reports eqn:Rp.
    - rewrite (Rt eq_refl). destruct (ras_exists w (skipn (tv_pos v) (tv_content v))) as [cs Rc]. replace v with (after v (firstn (length (@nil nat)) cs) true) at 2.
      2:{ unfold after. cbn. rewrite Nat.add_0_r. destruct v as [c p d]. cbn in *. congruence. }
      eapply tstep_read_failed; [exact Fl| |exact Rc|reflexivity|].
      + destruct Ho as [->|[[size ->]| ->]]; [left; reflexivity|right; left; exists size; split; [reflexivity|cbn; lia]|right; right; split; [reflexivity|intros []]].
      + intros [C|C]; congruence.
    - apply tstep_lost; auto.
  Qed.

  (* after(), of a file that was flushed *)
  Lemma after_flushed : forall v cs d, after (TView (tv_content v) (tv_pos v) false) cs d = after v cs d.
  Proof. reflexivity. Qed.

  Lemma t_exec_ok : forall t v o, tr t v -> allowed v o ->
    exists r t' v', t_exec impl total dyn more t o = Some (r, t') /\ tstep w reports flaky dyn v o r v' /\ tr t' v'.
  Proof.
    intros t v o H Al. destruct o as [size|size| | |data| | |pos]; cbn [t_exec].
    - (* Read *)
      unfold try_read. destruct (for_reading_ok t v H) as (success & t1 & -> & F). cbn [obind]. destruct success.
      + destruct F as (Rt & Wt & H1). destruct (read_rounds_ok (size + 1) t1 _ size [] H1 Rt Wt eq_refl ltac:(lia)) as (success & chars & t2 & cs & -> & _ & _ & (R2 & C2 & L2 & H2) & L3 & Fl & Q3).
        cbn [obind app]. rewrite after_flushed in H2. cbn [tv_pos tv_content] in R2. do 3 eexists. split; [reflexivity|]. split; [|exact H2]. destruct success.
        * apply tstep_read; auto.
        * eapply tstep_read_failed; [auto|right; left; exists size; split; [reflexivity|exact L3]|exact R2|exact C2|auto].
      + destruct F as (D & Fl & v' & H' & D' & Rp). do 3 eexists. split; [reflexivity|]. split; [|exact H']. apply lost_or_failed_read; eauto.
    - (* ReadSome *)
      destruct (for_reading_ok t v H) as (success & t1 & -> & F). cbn [obind]. destruct success.
      + destruct F as (Rt & Wt & H1). destruct (do_read_some_ok t1 _ size H1 Rt Wt eq_refl) as (r & t2 & -> & _ & _ & F2). cbn [obind]. destruct r as [chars|].
        * destruct F2 as (cs & R2 & C2 & L2 & L3 & Q2 & H2). do 3 eexists. split; [reflexivity|]. split; [|exact H2]. rewrite after_flushed. apply tstep_read_some; assumption.
        * destruct F2 as [Fl F2]. do 3 eexists. split; [reflexivity|]. split; [|exact F2]. apply tstep_failed; [auto|intros data C; discriminate C|auto].
      + destruct F as (D & Fl & v' & H' & D' & Rp). do 3 eexists. split; [reflexivity|]. split; [|exact H']. apply lost_or_failed; auto. intros data C; discriminate C.
    - (* ReadLine *)
      specialize (Al eq_refl). destruct (for_reading_ok t v H) as (success & t1 & -> & F). cbn [obind]. destruct success.
      + destruct F as (Rt & Wt & (iv & cs & H1)). assert (M : v_mode iv <> Writing) by (intros M; apply (tr_writing _ _ _ _ H1) in M; congruence).
        destruct (bi_step _ _ _ _ _ _ _ Bi _ iv (ReadUntil NL dyn) (tr_impl _ _ _ _ H1) M) as (r & s & v' & -> & G & H2); [auto|]. cbn [obind].
        set (c := tv_content v) in *. set (p := tv_pos v) in *.
        assert (Common : forall chars cs0 k, reads_as w (skipn (v_pos iv) (v_content iv)) cs0 -> k <= length chars ->
                  chars = map fst (firstn (length chars) (skipn (v_ahead iv) cs0)) ->
                  Q s (View Reading (v_content iv) (v_pos iv + extent (firstn (v_ahead iv + k) cs0)) (length chars - k)) ->
                  cs0 = cs /\ reads_as w (skipn p c) (skipn (v_ahead iv) cs) /\ tr (TFile s (t_reading t1) (t_writing t1)) (after v (firstn (length chars) (skipn (v_ahead iv) cs)) false)).
        { intros chars cs0 k R0 Lk Ec Hs. assert (cs0 = cs) as -> by (eapply ras_det; [exact R0|]; rewrite (tr_content _ _ _ _ H1); apply (tr_reads _ _ _ _ H1)).
          split; [reflexivity|]. pose proof (tr_pos _ _ _ _ H1) as P1. cbn [tv_pos] in P1. pose proof (tr_content _ _ _ _ H1) as C1. cbn [tv_content] in C1.
          split; [rewrite P1; apply ras_further; rewrite <- C1; exact R0|].
          eexists. exists (skipn (v_ahead iv + k) cs). constructor; cbn [t_impl t_reading t_writing]; [exact Hs|..]; cbn [v_mode v_content v_pos v_ahead after tv_content tv_pos tv_dirty].
          - exact C1.
          - fold c. rewrite <- C1. apply ras_further, R0.
          - fold p. rewrite P1. clear - Lk. replace (length chars) with (k + (length chars - k)) at 1 by lia. rewrite firstn_add, extent_app, skipn_add, firstn_add, extent_app. lia.
          - rewrite Wt. split; congruence.
          - rewrite Wt. congruence.
          - intros _. exact Rt.
          - rewrite Wt. congruence. }
        change NL with 10 in *. inversion G; subst.
        * destruct (Common chars cs0 k) as (-> & Rp & Ht); try assumption. destruct found.
          -- match goal with X : ends_at _ _ |- _ => destruct X as (line & -> & Nl) end. rewrite app_length in *. cbn [length] in *.
             rewrite (proj2 (Nat.ltb_lt 0 (length line + 1))) by lia. replace (length line + 1 - 1) with (length line) by lia. rewrite firstn_app, Nat.sub_diag, firstn_all. cbn [firstn]. rewrite app_nil_r.
             do 3 eexists. split; [reflexivity|]. split; [|exact Ht]. apply tstep_line; assumption.
          -- match goal with X : _ /\ at_end _ _ _ |- _ => destruct X as [X1 X2] end.
             do 3 eexists. split; [reflexivity|]. split; [|exact Ht].
             replace (if 0 <? length chars then Some chars else None) with (match chars with [] => None | _ => Some chars end) by (destruct chars; reflexivity).
             apply tstep_last_line; try assumption. rewrite skipn_add. assumption.
        * destruct (Common chars cs0 k) as (-> & Rp & Ht); try assumption. do 3 eexists. split; [reflexivity|]. split; [|exact Ht].
          eapply tstep_read_failed; [auto|right; right; auto|exact Rp|assumption|auto].
      + destruct F as (D & Fl & v' & H' & D' & Rp). do 3 eexists. split; [reflexivity|]. split; [|exact H']. apply lost_or_failed_read; auto.
    - (* ReadAll *)
      destruct (for_reading_ok t v H) as (success & t1 & Ef & F). rewrite Ef. destruct success.
      + destruct F as (Rt & Wt & H1). destruct (ras_exists w (skipn (tv_pos v) (tv_content v))) as [cs Rc].
        assert (Eq : forall fuel, read_all_rounds impl dyn more (S fuel) t [] = read_all_rounds impl dyn more (S fuel) t1 []).
        { intros fuel. cbn [read_all_rounds]. replace (try_read impl dyn t (256 + more (length (@nil nat)))) with (try_read impl dyn t1 (256 + more (length (@nil nat)))); [reflexivity|].
          unfold try_read. rewrite Ef, (for_reading_again t1 Rt Wt). reflexivity. }
        replace (total (t_impl t1) + 2) with (S (total (t_impl t1) + 1)) by lia. rewrite Eq.
        destruct (read_all_rounds_ok (S (total (t_impl t1) + 1)) t1 _ [] cs H1 Rt Wt eq_refl Rc) as (success & chars & t2 & cs2 & -> & (R2 & C2 & L2 & H2) & Fl & Q2).
        { unfold total. rewrite (tr_settled _ _ H1 eq_refl). cbn [tv_content]. pose proof (ras_length _ _ _ Rc) as L. rewrite skipn_length in L. lia. }
        cbn [obind app]. cbn [tv_pos tv_content] in R2. rewrite after_flushed in H2. do 3 eexists. split; [reflexivity|]. split; [|exact H2]. destruct success.
        * apply tstep_read_all; auto.
        * eapply tstep_read_failed; [auto|left; reflexivity|exact R2|exact C2|auto].
      + destruct F as (D & Fl & v' & H' & D' & Rp). replace (total (t_impl t1) + 2) with (S (total (t_impl t1) + 1)) by lia. cbn [read_all_rounds]. unfold try_read. rewrite Ef. cbn [obind app].
        do 3 eexists. split; [reflexivity|]. split; [|exact H']. apply lost_or_failed_read; auto.
    - (* Write *)
      assert (Wr : forall t1 m, Q (t_impl t1) (View m (tv_content v) (tv_pos v) 0) -> m <> Reading -> t_reading t1 = false ->
        exists r t' v', (let? (r, s) := impl (t_impl t1) (Op (OpWrite data 0)) in
          let t := TFile s (t_reading t1) true in
          match r with
          | Res (ResWrote _) => Some (Wrote, t)
          | Res (ResWriteFailed n) => Some (FailedWrite n, t)
          | _ => None
          end) = Some (r, t') /\ tstep w reports flaky dyn v (Write data) r v' /\ tr t' v').
      { intros t1 m X M Rt. destruct (bi_step _ _ _ _ _ _ _ Bi _ _ (Op (OpWrite data 0)) X M) as (r & s & v' & -> & G & H'); [right; eauto|]. cbn [obind].
        inversion G as [? ? r0 ? G'| |]; subst. rewrite Rt. inversion G'; subst.
        - do 3 eexists. split; [reflexivity|]. split; [apply tstep_write|]. apply (tr_plain s Writing); try congruence; [exact H'|tauto].
        - do 3 eexists. split; [reflexivity|]. split.
          + apply (tstep_write_failed w reports _ dyn v data n k); [auto|lia|lia|tauto].
          + apply (tr_plain s Writing); try congruence; [exact H'|tauto].
        - exists (FailedWrite n). eexists. exists (TView (v_content v') (v_pos v') true). split; [reflexivity|]. split; [apply tstep_lost; eauto|].
          destruct v' as [m' c p a]. cbn in *. subst. apply (tr_plain s Writing); try assumption; try congruence; tauto. }
      destruct (t_reading t) eqn:Rt.
      + assert (Wt : t_writing t = false) by (destruct H as (iv & cs & H); destruct (t_writing t) eqn:Wt; [|reflexivity]; pose proof (tr_both _ _ _ _ H Wt); congruence).
        unfold stop_reading. rewrite Rt, Wt. cbn [andb negb]. destruct (adv_ok t v H Wt) as (s & m & -> & X & M & Rm). cbn [obind].
        destruct (bi_step _ _ _ _ _ _ _ Bi _ _ (Op OpDiscard) X M) as (r & s' & v' & -> & G & H'); [right; eauto|]. cbn [obind].
        inversion G as [? ? r0 ? G'| |]; subst. inversion G'; subst.
        * cbn [obind]. exact (Wr (TFile s' false false) Neutral H' ltac:(congruence) eq_refl).
        * cbn [obind]. do 3 eexists. split; [reflexivity|]. split.
          -- apply (tstep_write_failed w reports _ dyn v data 0 0); [auto|lia| |auto]. destruct data; [auto|left; cbn; lia].
          -- cbn [firstn]. unfold tput. rewrite was_nil. cbn. rewrite Nat.add_0_r. apply (tr_plain s' m); try congruence; try assumption. split; congruence.
      + cbn [obind]. destruct (not_reading t v H Rt) as (m & X & M & _). exact (Wr t m X M Rt).
    - (* Flush *)
      destruct (t_writing t) eqn:Wt.
      + destruct (stop_writing_ok t v H Wt) as (success & t' & -> & Rt & F). cbn [obind]. destruct success.
        * do 3 eexists. split; [reflexivity|]. split; [apply tstep_flush|apply F].
        * destruct F as (Fl & v' & H' & D' & Rp). do 3 eexists. split; [reflexivity|]. split; [|exact H']. apply lost_or_failed; auto; [intros data C; discriminate C|].
          destruct H as (iv & cs & H). apply (tr_dirty _ _ _ _ H Wt).
      + do 3 eexists. split; [reflexivity|]. split; [apply tstep_flush|]. destruct H as (iv & cs & H). exists iv, cs. destruct H. constructor; cbn; try assumption. congruence.
    - (* Tell *)
      destruct (t_reading t) eqn:Rt.
      + assert (Wt : t_writing t = false) by (destruct H as (iv & cs & H); destruct (t_writing t) eqn:Wt; [|reflexivity]; pose proof (tr_both _ _ _ _ H Wt); congruence).
        destruct (adv_ok t v H Wt) as (s & m & -> & X & M & Rm). cbn [obind].
        destruct (bi_step _ _ _ _ _ _ _ Bi _ _ (Op OpTellRead) X M) as (r & s' & v' & -> & G & H'); [right; eauto|]. cbn [obind].
        assert (Back : tr (TFile s' true (t_writing t)) (TView (tv_content v) (tv_pos v) (tv_dirty v))).
        { assert (Q s' (View m (tv_content v) (tv_pos v) 0)) by (inversion G as [? ? r0 ? G'| |]; subst; inversion G'; subst; exact H').
          rewrite Wt. apply (tr_plain s' m); try assumption; try congruence. split; congruence. }
        inversion G as [? ? r0 ? G'| |]; subst. inversion G'; subst.
        * do 3 eexists. split; [reflexivity|]. split; [apply tstep_tell|]. destruct v as [c p d]. exact Back.
        * do 3 eexists. split; [reflexivity|]. split; [|exact Back]. apply tstep_failed; [auto|intros data C; discriminate C|auto].
      + cbn [obind]. destruct (not_reading t v H Rt) as (m & X & M & Wm).
        destruct (bi_step _ _ _ _ _ _ _ Bi _ _ (Op OpTellWrite) X M) as (r & s' & v' & -> & G & H'); [right; eauto|]. cbn [obind].
        assert (Dt : t_writing t = true -> tv_dirty v = true) by (destruct H as (iv & cs & H); apply (tr_dirty _ _ _ _ H)).
        assert (Back : Q s' (View m (tv_content v) (tv_pos v) 0) -> tr (TFile s' false (t_writing t)) (TView (tv_content v) (tv_pos v) (tv_dirty v))).
        { intros X'. apply (tr_plain s' m); try assumption; try congruence. }
        inversion G as [? ? r0 ? G'| |]; subst. inversion G'; subst.
        * do 3 eexists. split; [reflexivity|]. split; [apply tstep_tell|]. destruct v as [c p d]. exact (Back H').
        * do 3 eexists. split; [reflexivity|]. split; [|exact (Back H')]. apply tstep_failed; [auto|intros data C; discriminate C|auto].
        * cbn [v_mode] in *. subst m. do 2 eexists. exists (TView (v_content v') (v_pos v') true). split; [reflexivity|]. split.
          -- apply tstep_lost; auto. left. apply Dt. apply Wm. reflexivity.
          -- destruct v' as [m' c p a]. cbn in *. subst. apply (tr_plain s' Writing); try congruence; try assumption.
    - (* Seek *)
      assert (Sk : forall t1 iv c p, Q (t_impl t1) iv -> v_mode iv <> Writing -> v_content iv = c -> t_writing t1 = false -> tv_content v = c -> tv_pos v = p ->
          (v_mode iv = Reading -> t_reading t1 = true) -> (exists cs, reads_as w (skipn (v_pos iv) c) cs /\ p = v_pos iv + extent (firstn (v_ahead iv) cs)) ->
        exists r t' v', (let? (r, s) := impl (t_impl t1) (Op (OpSeek pos)) in
          match r with
          | Res ResDone => Some (Done, TFile s false (t_writing t1))
          | _ => Some (Failed, TFile s (t_reading t1) (t_writing t1))
          end) = Some (r, t') /\ tstep w reports flaky dyn v (Seek pos) r v' /\ tr t' v').
      { intros t1 iv c p X M C Wt Cv Pv Rm (cs & Rc & P). destruct (bi_step _ _ _ _ _ _ _ Bi _ _ (Op (OpSeek pos)) X M) as (r & s & v' & -> & G & H'); [right; eauto|]. cbn [obind].
        inversion G as [? ? r0 ? G'| |]; subst. inversion G'; subst.
        - do 3 eexists. split; [reflexivity|]. split; [apply tstep_seek|]. rewrite Wt, Cv. apply (tr_plain s Neutral); try assumption; try congruence. split; congruence.
        - do 3 eexists. split; [reflexivity|]. split; [apply (tstep_failed w reports _ dyn v (Seek pos) false); [auto|intros data C; discriminate C|auto]|].
          exists v', cs. rewrite Cv. constructor; cbn; try assumption; try congruence; try reflexivity. rewrite Wt. split; congruence. }
      destruct (t_writing t) eqn:Wt.
      + destruct (stop_writing_ok t v H Wt) as (success & t' & -> & Rt & F). cbn [obind]. destruct success.
        * destruct F as (Wt' & (iv & cs & H1)). apply (Sk t' iv (tv_content v) (tv_pos v)); try reflexivity; try apply H1; try assumption.
          -- intros M. apply (tr_writing _ _ _ _ H1) in M. congruence.
          -- exists cs. split; [apply (tr_reads _ _ _ _ H1)|apply (tr_pos _ _ _ _ H1)].
        * destruct F as (Fl & v' & H' & D' & Rp). do 3 eexists. split; [reflexivity|]. split; [|exact H']. apply lost_or_failed; auto; [intros data C; discriminate C|].
          destruct H as (iv & cs & H). apply (tr_dirty _ _ _ _ H Wt).
      + cbn [obind]. destruct H as (iv & cs & H). apply (Sk t iv (tv_content v) (tv_pos v)); try reflexivity; try apply H; try assumption.
        * intros M. apply (tr_writing _ _ _ _ H) in M. congruence.
        * exists cs. split; [apply (tr_reads _ _ _ _ H)|apply (tr_pos _ _ _ _ H)].
  Qed.
End TopFile.
