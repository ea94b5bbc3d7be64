(* Properties of text files. *)
From Coq Require Import List Arith Bool Lia.
From Verif Require Import ArrLib NewlineModel NewlineSpec NewlineProofs WinFileModel WinFileSpec WinFileProofs TextFileModel TextFileSpec TextFileProofs TextFileProofs2 TextFileProofs3.
Import ListNotations.

Lemma history_in_order : forall {T V O R : Type} (exec : T -> O -> option (R * T)) (content_of : T -> list nat) (allowed : V -> O -> Prop)
    (does : V -> O -> R -> V -> Prop) (settled : V -> Prop) (shows : V -> list nat) (rel : T -> V -> Prop),
  (forall v o, allowed v o \/ ~ allowed v o) ->
  (forall s v o, rel s v -> allowed v o -> exists r s' v', exec s o = Some (r, s') /\ does v o r v' /\ rel s' v') ->
  (forall s v, rel s v -> settled v -> content_of s = shows v) ->
  forall os s v, rel s v -> in_order allowed does settled shows v os (history exec content_of s os).
Proof.
  intros T V O R exec content_of allowed does settled shows rel Dec Step Shows. induction os as [|o os IH]; intros s v H; [constructor|].
  destruct (Dec v o) as [Al|Al]; [|constructor; exact Al]. destruct (Step s v o H Al) as (r & s' & v' & E & D & H'). cbn [history]. rewrite E.
  eapply in_order_step; eauto.
Qed.

Lemma blegal_dec : forall v o, blegal v o \/ ~ blegal v o.
Proof.
  intros v [o|d e]; [apply legal_dec|]. cbn. destruct (v_mode v); [left|left|right]; try discriminate. intros C. apply C. reflexivity.
Qed.

Definition fresh (f : file) : view := View Neutral (content f) (position f) 0.
Definition settled (v : view) : Prop := v_mode v <> Writing.
Definition may_fail (e : env) (flaky : bool) : Prop := forall n, fails e n = true -> flaky = true.

Lemma posix_fresh : forall f, posix_rel (posix_init f) (fresh f).
Proof. intros f. unfold posix_rel, fresh. cbn. repeat split; lia. Qed.

(* C168: the primitive implementation with POSIX newlines does what the concept of text file implementations says, for every file, every
   sequence of operations, and every behavior of the actual file.  If nothing fails in the actual file, no operation fails. *)
Theorem posix_file_conforms : forall e flaky f os, may_fail e flaky ->
  in_order legal (gstep false true flaky) settled v_content (fresh f) os (history (posix_exec e) (fun s => content (p_file s)) (posix_init f) os).
Proof.
  intros e flaky f os Fl. apply history_in_order with (rel := posix_rel).
  - apply legal_dec.
  - intros s v o. apply posix_ok. exact Fl.
  - intros s v H _. apply H.
  - apply posix_fresh.
Qed.
(* an environment in which everything works, with at most three bytes at a time, and one in which every third operation fails *)
Definition steady : env := Env (fun _ => false) (fun _ => 3) (fun _ => 0).
Definition shaky : env := Env (fun n => n mod 3 =? 2) (fun _ => 1) (fun _ => 0).
Lemma steady_ok : may_fail steady false.
Proof. intros n C. discriminate C. Qed.
Lemma shaky_ok : may_fail shaky true.
Proof. intros n _. reflexivity. Qed.
Example posix_file_conforms_ex :
  history (posix_exec shaky) (fun s => content (p_file s)) (posix_init (File [97; 98; 99; 100] 0 0))
    [OpReadAhead 2 false; OpAdvance 1; OpDiscard; OpTellWrite; OpWrite [120] 0; OpWrite [121; 122] 0; OpWrite [121; 122] 0; OpFlush] =
  [Some (ResRead [97], [97; 98; 99; 100]); Some (ResDone, [97; 98; 99; 100]); Some (ResDone, [97; 98; 99; 100]); Some (ResTold 1, [97; 98; 99; 100]);
   Some (ResWriteFailed 0, [97; 98; 99; 100]); Some (ResWrote 2, [97; 121; 122; 100]); Some (ResWrote 2, [97; 121; 122; 121; 122]);
   Some (ResDone, [97; 121; 122; 121; 122])].
Proof. vm_compute. reflexivity. Qed.

(* C169: the buffered implementation, on top of the POSIX one, does as well, for every size of the buffer. *)
Definition buffered_posix (e : env) (more : nat -> nat) : buffered posix -> bop -> option (bres * buffered posix) :=
  b_exec (posix_exec e) (fun s => length (content (p_file s))) more.
Theorem buffered_posix_conforms : forall e flaky more f buffer os, may_fail e flaky ->
  in_order blegal (bstep false true flaky) settled v_content (fresh f) os
    (history (buffered_posix e more) (fun b => content (p_file (b_sub b))) (buffered_init more (posix_init f) buffer) os).
Proof.
  intros e flaky more f buffer os Fl. pose proof (buffered_implements _ _ _ _ _ _ more (posix_implements e flaky Fl)) as Bi.
  apply history_in_order with (rel := brel false posix_rel).
  - apply blegal_dec.
  - intros s v o H Lg. apply (bi_step _ _ _ _ _ _ _ Bi); auto.
  - intros s v H St. apply (bi_content _ _ _ _ _ _ _ Bi); assumption.
  - apply buffered_init_rel. apply posix_fresh.
Qed.
Example buffered_posix_conforms_ex :
  history (buffered_posix steady (fun _ => 0)) (fun b => content (p_file (b_sub b))) (buffered_init (fun _ => 0) (posix_init (File [97; 98; 10; 99; 100] 0 0)) [0; 0])
    [Op (OpReadAhead 1 false); ReadUntil 10 false; Op OpAdvanceAll; Op OpTellRead; Op OpDiscard; Op (OpWrite [120; 121; 122] 0); Op OpTellWrite; Op OpFlush] =
  [Some (Res (ResRead [97]), [97; 98; 10; 99; 100]); Some (Until true [98; 10], [97; 98; 10; 99; 100]); Some (Res ResDone, [97; 98; 10; 99; 100]);
   Some (Res (ResTold 3), [97; 98; 10; 99; 100]); Some (Res ResDone, [97; 98; 10; 99; 100]); Some (Res (ResWrote 3), [97; 98; 10; 120; 121]);
   Some (Res (ResTold 6), [97; 98; 10; 120; 121; 122]); Some (Res ResDone, [97; 98; 10; 120; 121; 122])].
Proof. vm_compute. reflexivity. Qed.

(* C170: the buffered implementation on top of the Windows one.  When an attempt to write fails, the contents are not as they should be. *)
Definition buffered_windows (e : env) (more : nat -> nat) : buffered impl -> bop -> option (bres * buffered impl) :=
  b_exec (exec e) (fun s => length (content (m_file s))) more.
Theorem buffered_windows_conforms_partial : forall e flaky more f buffer sub_buffer os, may_fail e flaky ->
  in_order blegal (bstep true false flaky) settled v_content (fresh f) os
    (history (buffered_windows e more) (fun b => content (m_file (b_sub b))) (buffered_init more (init f sub_buffer) buffer) os).
Proof.
  intros e flaky more f buffer sub_buffer os Fl. pose proof (buffered_implements _ _ _ _ _ _ more (win_implements e flaky Fl)) as Bi.
  apply history_in_order with (rel := brel true rel).
  - apply blegal_dec.
  - intros s v o H Lg. apply (bi_step _ _ _ _ _ _ _ Bi); auto.
  - intros s v H St. apply (bi_content _ _ _ _ _ _ _ Bi); assumption.
  - apply buffered_init_rel. apply rel_neutral.
Qed.
Example buffered_windows_conforms_ex :
  history (buffered_windows steady (fun _ => 0)) (fun b => content (m_file (b_sub b))) (buffered_init (fun _ => 0) (init (File [97; 13; 10; 99; 13] 0 0) [0; 0; 0]) [0; 0])
    [ReadUntil 10 false; Op OpAdvanceAll; Op OpTellRead; Op (OpReadAhead 5 true); Op (OpReadAhead 5 true); Op OpDiscard; Op (OpWrite [10; 121; 10] 0); Op OpFlush] =
  [Some (Until true [97; 10], [97; 13; 10; 99; 13]); Some (Res ResDone, [97; 13; 10; 99; 13]); Some (Res (ResTold 3), [97; 13; 10; 99; 13]);
   Some (Res (ResRead [99]), [97; 13; 10; 99; 13]); Some (Res (ResRead []), [97; 13; 10; 99; 13]); Some (Res ResDone, [97; 13; 10; 99; 13]);
   Some (Res (ResWrote 3), [97; 13; 10; 99; 13]); Some (Res ResDone, [97; 13; 10; 13; 10; 121; 13; 10])].
Proof. vm_compute. reflexivity. Qed.

Lemma in_order_does : forall {V O R : Type} (allowed : V -> O -> Prop) (does does' : V -> O -> R -> V -> Prop) (settled : V -> Prop) (shows : V -> list nat),
  (forall v o r v', does v o r v' -> does' v o r v') ->
  forall v os rs, in_order allowed does settled shows v os rs -> in_order allowed does' settled shows v os rs.
Proof. intros V O R al d d' st sh Im v os rs H. induction H; [constructor|constructor; assumption|eapply in_order_step; eauto]. Qed.
Lemma in_order_inv : forall {V O R : Type} (allowed : V -> O -> Prop) (does : V -> O -> R -> V -> Prop) (settled : V -> Prop) (shows : V -> list nat) v o os rs,
  allowed v o -> in_order allowed does settled shows v (o :: os) rs ->
  exists r c v' rs', rs = Some (r, c) :: rs' /\ does v o r v' /\ (settled v' -> c = shows v') /\ in_order allowed does settled shows v' os rs'.
Proof. intros V O R al d st sh v o os rs A H. inversion H; subst; [contradiction|]. eauto 10. Qed.
Lemma in_order_done : forall {V O R : Type} (allowed : V -> O -> Prop) (does : V -> O -> R -> V -> Prop) (settled : V -> Prop) (shows : V -> list nat) v rs,
  in_order allowed does settled shows v [] rs -> rs = [].
Proof. intros V O R al d st sh v rs H. inversion H. reflexivity. Qed.
Lemma gstep_reliable : forall w v o r v', gstep w false false v o r v' -> gstep w true false v o r v'.
Proof. intros w v o r v' H. inversion H; subst; try discriminate; econstructor; eauto. Qed.
Lemma bstep_reliable : forall w v o r v', bstep w false false v o r v' -> bstep w true false v o r v'.
Proof. intros w v o r v' H. inversion H; subst; try discriminate; econstructor; eauto using gstep_reliable. Qed.

(* If nothing fails in the actual file, the contents are as they should be with Windows newlines too, and no operation fails. *)
Theorem buffered_windows_reliable : forall e more f buffer sub_buffer os, may_fail e false ->
  in_order blegal (bstep true true false) settled v_content (fresh f) os
    (history (buffered_windows e more) (fun b => content (m_file (b_sub b))) (buffered_init more (init f sub_buffer) buffer) os).
Proof.
  intros e more f buffer sub_buffer os Fl. eapply in_order_does; [intros ? ? ? ?; apply bstep_reliable|]. apply buffered_windows_conforms_partial. exact Fl.
Qed.

(* If something fails, characters can be written twice: of abcde, only abcd is written when the second attempt to write to the actual file
   fails, and the characters are all written again when the application flushes again. *)
Definition second_fails : env := Env (fun n => n =? 1) (fun _ => 1) (fun _ => 0).
Lemma written_twice :
  history (buffered_windows second_fails (fun _ => 0)) (fun b => content (m_file (b_sub b))) (buffered_init (fun _ => 0) (init (File [] 0 0) [0; 0]) [0; 0; 0; 0; 0])
    [Op (OpWrite [97; 98; 99; 100; 101] 0); Op OpFlush; Op OpFlush] =
  [Some (Res (ResWrote 5), []); Some (Res ResFailed, [97; 98; 99; 100]); Some (Res ResDone, [97; 98; 99; 100; 97; 98; 99; 100; 101])].
Proof. vm_compute. reflexivity. Qed.
Theorem buffered_windows_conforms_refuted :
  ~ (forall e more f buffer sub_buffer os,
       in_order blegal (bstep true true true) settled v_content (fresh f) os
         (history (buffered_windows e more) (fun b => content (m_file (b_sub b))) (buffered_init more (init f sub_buffer) buffer) os)).
Proof.
  intros H. specialize (H second_fails (fun _ => 0) (File [] 0 0) [0; 0; 0; 0; 0] [0; 0] [Op (OpWrite [97; 98; 99; 100; 101] 0); Op OpFlush; Op OpFlush]).
  rewrite written_twice in H. apply in_order_inv in H; [|cbn; discriminate]. destruct H as (r & c & v1 & rs & E & D & _ & H). injection E as <- <- <-.
  inversion D; subst. match goal with X : gstep _ _ _ _ _ _ _ |- _ => inversion X; subst end. clear D.
  apply in_order_inv in H; [|cbn; discriminate]. destruct H as (r & c & v2 & rs & E & D & _ & H). injection E as <- <- <-.
  inversion D; subst. match goal with X : gstep _ _ _ _ _ ResFailed _ |- _ => inversion X; subst; try discriminate end. clear D.
  apply in_order_inv in H; [|cbn; discriminate]. destruct H as (r & c & v3 & rs & E & D & Sh & _). injection E as <- <- <-.
  inversion D; subst. match goal with X : gstep _ _ _ _ _ ResDone _ |- _ => inversion X; subst end.
  assert (X : settled (View Neutral (overlay [] 0 [97; 98; 99; 100; 101]) 5 0)) by discriminate. specialize (Sh X). discriminate Sh.
Qed.

(* C171: read_until().  The concept of buffered text file implementations says that it starts at the logical file pointer, and leaves it after
   the last extracted character. *)
Inductive until_step (w : bool) : view -> bop -> bres -> view -> Prop :=
| until_op : forall v o r v', gstep w true true v o r v' -> until_step w v (Op o) (Res r) v'
| until_until : forall v delim dynamic_eof found chars cs ahead, reads_as w (skipn (v_pos v) (v_content v)) cs ->
    chars = map fst (firstn (length chars) cs) ->
    (if found : bool then ends_at delim chars else ~ In delim chars /\ at_end w dynamic_eof (skipn (length chars) cs)) ->
    until_step w v (ReadUntil delim dynamic_eof) (Until found chars)
      (View Reading (v_content v) (v_pos v + extent (firstn (length chars) cs)) ahead)
| until_failed : forall v delim dynamic_eof chars v', until_step w v (ReadUntil delim dynamic_eof) (UntilFailed chars) v'.

(* Instead, the logical file pointer can be left where it is, *)
Theorem read_until_moves_refuted :
  ~ (forall e more f buffer delim dynamic_eof,
       in_order blegal (until_step false) settled v_content (fresh f) [ReadUntil delim dynamic_eof; Op OpTellRead]
         (history (buffered_posix e more) (fun b => content (p_file (b_sub b))) (buffered_init more (posix_init f) buffer) [ReadUntil delim dynamic_eof; Op OpTellRead])).
Proof.
  intros H. specialize (H steady (fun _ => 0) (File [97; 98; 10; 99; 100] 0 0) [0; 0; 0; 0] 10 false).
  replace (history _ _ _ _) with [Some (Until true [97; 98; 10], [97; 98; 10; 99; 100]); Some (Res (ResTold 0), [97; 98; 10; 99; 100])] in H by (vm_compute; reflexivity).
  apply in_order_inv in H; [|discriminate]. destruct H as (r & c & v1 & rs & E & D & _ & H). injection E as <- <- <-. inversion D; subst. clear D.
  apply in_order_inv in H; [|discriminate]. destruct H as (r & c & v2 & rs & E & D & _ & _). injection E as <- <- <-. inversion D; subst. clear D.
  match goal with X : reads_as _ _ _ |- _ => cbn in X; subst end. match goal with X : gstep _ _ _ _ _ _ _ |- _ => inversion X; subst; discriminate end.
Qed.
(* and what has been read ahead already is skipped. *)
Theorem read_until_starts_refuted :
  ~ (forall e more f buffer size delim dynamic_eof,
       in_order blegal (until_step false) settled v_content (fresh f) [Op (OpReadAhead size dynamic_eof); ReadUntil delim dynamic_eof]
         (history (buffered_posix e more) (fun b => content (p_file (b_sub b))) (buffered_init more (posix_init f) buffer)
            [Op (OpReadAhead size dynamic_eof); ReadUntil delim dynamic_eof])).
Proof.
  intros H. specialize (H steady (fun _ => 0) (File [97; 98; 10; 99; 100] 0 0) [0; 0; 0; 0] 1 10 false).
  replace (history _ _ _ _) with [Some (Res (ResRead [97]), [97; 98; 10; 99; 100]); Some (Until true [98; 10], [97; 98; 10; 99; 100])] in H by (vm_compute; reflexivity).
  apply in_order_inv in H; [|discriminate]. destruct H as (r & c & v1 & rs & E & D & _ & H). injection E as <- <- <-. inversion D; subst.
  match goal with X : gstep _ _ _ _ _ _ _ |- _ => inversion X; subst end. clear D.
  apply in_order_inv in H; [|discriminate]. destruct H as (r & c & v2 & rs & E & D & _ & _). injection E as <- <- <-. inversion D as [|? ? ? ? ? cs2 ah Rc Ec|]; subst.
  cbn in Rc. subst cs2. discriminate Ec.
Qed.

(* What does hold: when nothing has been read ahead, and after a subsequent advance(). *)
Definition until_then_advance (w : bool) (f : file) (delim : nat) (dynamic_eof : bool) (rs : list (option (bres * list nat))) : Prop :=
  exists found chars cs c1 c2 c3,
    rs = [Some (Until found chars, c1); Some (Res ResDone, c2); Some (Res (ResTold (position f + extent (firstn (length chars) cs))), c3)] /\
    reads_as w (skipn (position f) (content f)) cs /\ chars = map fst (firstn (length chars) cs) /\
    (if found : bool then ends_at delim chars else ~ In delim chars /\ at_end w dynamic_eof (skipn (length chars) cs)).
Lemma until_then_advance_ok : forall w f delim dynamic_eof rs,
  in_order blegal (bstep w true false) settled v_content (fresh f) [ReadUntil delim dynamic_eof; Op OpAdvanceAll; Op OpTellRead] rs ->
  until_then_advance w f delim dynamic_eof rs.
Proof.
  intros w f delim dyn rs H. apply in_order_inv in H; [|discriminate]. destruct H as (r1 & c1 & v1 & rs1 & -> & D & _ & H).
  inversion D as [|? ? ? found chars cs k Rc Ec En Lk|]; subst; [|discriminate]. clear D. cbn [v_pos v_content v_ahead fresh skipn] in *. rewrite Nat.add_0_l in *.
  apply in_order_inv in H; [|discriminate]. destruct H as (r2 & c2 & v2 & rs2 & -> & D & _ & H).
  inversion D; subst. clear D. match goal with X : gstep _ _ _ _ _ _ _ |- _ => inversion X; subst; clear X end.
  match goal with X : moved_as _ _ _ _ |- _ => apply moved_as_of with (cs := skipn k cs) in X; [|apply ras_further; exact Rc] end. subst v2. cbn [v_pos v_content v_ahead v_mode] in *.
  apply in_order_inv in H; [|discriminate]. destruct H as (r3 & c3 & v3 & rs3 & -> & D & _ & H). apply in_order_done in H. subst rs3.
  inversion D; subst. clear D. match goal with X : gstep _ _ _ _ _ _ _ |- _ => inversion X; subst; clear X; [|discriminate] end. cbn [v_pos].
  exists found, chars, cs, c1, c2, c3. split; [|auto]. do 5 f_equal. f_equal. f_equal.
  replace (length chars) with (k + (length chars - k)) at 2 by lia. rewrite firstn_add, extent_app. lia.
Qed.

Theorem read_until_posix_partial : forall e more f buffer delim dynamic_eof, may_fail e false ->
  until_then_advance false f delim dynamic_eof
    (history (buffered_posix e more) (fun b => content (p_file (b_sub b))) (buffered_init more (posix_init f) buffer)
       [ReadUntil delim dynamic_eof; Op OpAdvanceAll; Op OpTellRead]).
Proof. intros e more f buffer delim dyn Fl. apply until_then_advance_ok. apply buffered_posix_conforms. exact Fl. Qed.
Theorem read_until_windows_partial : forall e more f buffer sub_buffer delim dynamic_eof, may_fail e false ->
  until_then_advance true f delim dynamic_eof
    (history (buffered_windows e more) (fun b => content (m_file (b_sub b))) (buffered_init more (init f sub_buffer) buffer)
       [ReadUntil delim dynamic_eof; Op OpAdvanceAll; Op OpTellRead]).
Proof. intros e more f buffer sub_buffer delim dyn Fl. apply until_then_advance_ok. apply buffered_windows_reliable. exact Fl. Qed.
Example read_until_windows_ex :
  history (buffered_windows steady (fun _ => 1)) (fun b => content (m_file (b_sub b))) (buffered_init (fun _ => 1) (init (File [120; 97; 13; 10; 98; 59; 99] 1 0) []) [])
    [ReadUntil 59 false; Op OpAdvanceAll; Op OpTellRead] =
  let c := [120; 97; 13; 10; 98; 59; 99] in [Some (Until true [97; 10; 98; 59], c); Some (Res ResDone, c); Some (Res (ResTold 6), c)].
Proof. vm_compute. reflexivity. Qed.

(* C172: text files with POSIX newlines do what applications expect, for every file, every sequence of operations, and every behavior of the
   actual file.  Lines can be read only from files that are buffered (otherwise, there is no read_line()). *)
Definition tfresh (f : file) : tview := TView (content f) (position f) false.
Definition tsettled (v : tview) : Prop := tv_dirty v = false.
Definition any_line (v : tview) (o : top) : Prop := True.
Definition no_line (v : tview) (o : top) : Prop := o <> ReadLine.
Definition opened {T : Type} (s : T) : tfile T := TFile s false false.

Lemma no_line_dec : forall v o, no_line v o \/ ~ no_line v o.
Proof. intros v o. unfold no_line. destruct o; try (left; discriminate). right. intros C. apply C. reflexivity. Qed.

Definition posix_text_file (e : env) (dynamic_eof : bool) (more : nat -> nat) : tfile posix -> top -> option (tres * tfile posix) :=
  t_exec (unbuffered (posix_exec e)) (fun s => length (content (p_file s))) dynamic_eof more.
Theorem posix_text_file_conforms : forall e flaky dynamic_eof more f os, may_fail e flaky ->
  in_order no_line (tstep false true flaky dynamic_eof) tsettled tv_content (tfresh f) os
    (history (posix_text_file e dynamic_eof more) (fun t => content (p_file (t_impl t))) (opened (posix_init f)) os).
Proof.
  intros e flaky dyn more f os Fl. pose proof (unbuffered_implements _ _ _ _ _ _ (posix_implements e flaky Fl)) as Bi.
  apply history_in_order with (rel := tr false posix_rel).
  - apply no_line_dec.
  - intros s v o H Al. apply (t_exec_ok _ _ _ _ dyn _ _ _ more Bi); [assumption|]. intros C. contradiction.
  - intros s v H D. apply (tr_settled _ _ _ _ _ _ _ Bi); assumption.
  - apply tr_plain with (m := Neutral); try discriminate; [apply posix_fresh|]. split; discriminate.
Qed.
Example posix_text_file_conforms_ex :
  history (posix_text_file shaky false (fun _ => 0)) (fun t => content (p_file (t_impl t))) (opened (posix_init (File [97; 98; 99; 100] 0 0)))
    [Read 3; Read 3; Write [120]; Tell; Seek 1; ReadAll] =
  [Some (FailedRead [97; 98], [97; 98; 99; 100]); Some (FailedRead [99; 100], [97; 98; 99; 100]); Some (Wrote, [97; 98; 99; 100; 120]);
   Some (Told 5, [97; 98; 99; 100; 120]); Some (Failed, [97; 98; 99; 100; 120]); Some (GotChars [], [97; 98; 99; 100; 120])].
Proof. vm_compute. reflexivity. Qed.

Definition posix_buffered_text_file (e : env) (dynamic_eof : bool) (more more_2 : nat -> nat) : tfile (buffered posix) -> top -> option (tres * tfile (buffered posix)) :=
  t_exec (buffered_posix e more) (fun b => length (content (p_file (b_sub b)))) dynamic_eof more_2.
Theorem posix_buffered_text_file_conforms : forall e flaky dynamic_eof more more_2 f buffer os, may_fail e flaky ->
  in_order any_line (tstep false true flaky dynamic_eof) tsettled tv_content (tfresh f) os
    (history (posix_buffered_text_file e dynamic_eof more more_2) (fun t => content (p_file (b_sub (t_impl t)))) (opened (buffered_init more (posix_init f) buffer)) os).
Proof.
  intros e flaky dyn more more_2 f buffer os Fl. pose proof (buffered_implements _ _ _ _ _ _ more (posix_implements e flaky Fl)) as Bi.
  apply history_in_order with (rel := tr false (brel false posix_rel)).
  - left. exact I.
  - intros s v o H Al. apply (t_exec_ok _ _ _ _ dyn _ _ _ more_2 Bi); [assumption|]. intros C. reflexivity.
  - intros s v H D. apply (tr_settled _ _ _ _ _ _ _ Bi); assumption.
  - apply tr_plain with (m := Neutral); try discriminate; [apply buffered_init_rel, posix_fresh|]. split; discriminate.
Qed.
Example posix_buffered_text_file_conforms_ex :
  history (posix_buffered_text_file steady false (fun _ => 0) (fun _ => 0)) (fun t => content (p_file (b_sub (t_impl t))))
    (opened (buffered_init (fun _ => 0) (posix_init (File [97; 10; 98; 99; 10; 100] 0 0)) [0; 0]))
    [ReadLine; Read 1; ReadLine; ReadLine; ReadLine; Write [101]; Tell; Flush; Seek 4; ReadAll] =
  let c := [97; 10; 98; 99; 10; 100] in
  [Some (GotLine (Some [97]), c); Some (GotChars [98], c); Some (GotLine (Some [99]), c); Some (GotLine (Some [100]), c); Some (GotLine None, c); Some (Wrote, c);
   Some (Told 7, c ++ [101]); Some (Done, c ++ [101]); Some (Done, c ++ [101]); Some (GotChars [10; 100; 101], c ++ [101])].
Proof. vm_compute. reflexivity. Qed.

(* C173: text files with Windows newlines.  When an attempt to write fails, the contents are not as they should be. *)
Definition windows_text_file (e : env) (dynamic_eof : bool) (more : nat -> nat) : tfile impl -> top -> option (tres * tfile impl) :=
  t_exec (unbuffered (exec e)) (fun s => length (content (m_file s))) dynamic_eof more.
Theorem windows_text_file_conforms_partial : forall e flaky dynamic_eof more f sub_buffer os, may_fail e flaky ->
  in_order no_line (tstep true false flaky dynamic_eof) tsettled tv_content (tfresh f) os
    (history (windows_text_file e dynamic_eof more) (fun t => content (m_file (t_impl t))) (opened (init f sub_buffer)) os).
Proof.
  intros e flaky dyn more f sub_buffer os Fl. pose proof (unbuffered_implements _ _ _ _ _ _ (win_implements e flaky Fl)) as Bi.
  apply history_in_order with (rel := tr true rel).
  - apply no_line_dec.
  - intros s v o H Al. apply (t_exec_ok _ _ _ _ dyn _ _ _ more Bi); [assumption|]. intros C. contradiction.
  - intros s v H D. apply (tr_settled _ _ _ _ _ _ _ Bi); assumption.
  - apply tr_plain with (m := Neutral); try discriminate; [apply rel_neutral|]. split; discriminate.
Qed.
Definition windows_buffered_text_file (e : env) (dynamic_eof : bool) (more more_2 : nat -> nat) : tfile (buffered impl) -> top -> option (tres * tfile (buffered impl)) :=
  t_exec (buffered_windows e more) (fun b => length (content (m_file (b_sub b)))) dynamic_eof more_2.
Theorem windows_buffered_text_file_conforms_partial : forall e flaky dynamic_eof more more_2 f buffer sub_buffer os, may_fail e flaky ->
  in_order any_line (tstep true false flaky dynamic_eof) tsettled tv_content (tfresh f) os
    (history (windows_buffered_text_file e dynamic_eof more more_2) (fun t => content (m_file (b_sub (t_impl t)))) (opened (buffered_init more (init f sub_buffer) buffer)) os).
Proof.
  intros e flaky dyn more more_2 f buffer sub_buffer os Fl. pose proof (buffered_implements _ _ _ _ _ _ more (win_implements e flaky Fl)) as Bi.
  apply history_in_order with (rel := tr true (brel true rel)).
  - left. exact I.
  - intros s v o H Al. apply (t_exec_ok _ _ _ _ dyn _ _ _ more_2 Bi); [assumption|]. intros C. reflexivity.
  - intros s v H D. apply (tr_settled _ _ _ _ _ _ _ Bi); assumption.
  - apply tr_plain with (m := Neutral); try discriminate; [apply buffered_init_rel, rel_neutral|]. split; discriminate.
Qed.

(* The number of characters that are reported to have been written is not right, *)
Theorem windows_text_file_conforms_refuted :
  ~ (forall e dynamic_eof more f sub_buffer os,
       in_order no_line (tstep true true true dynamic_eof) tsettled tv_content (tfresh f) os
         (history (windows_text_file e dynamic_eof more) (fun t => content (m_file (t_impl t))) (opened (init f sub_buffer)) os)).
Proof.
  intros H. specialize (H second_fails false (fun _ => 0) (File [] 0 0) [0; 0] [Write [97; 98; 99; 100; 101]; Flush]).
  replace (history _ _ _ _) with [Some (FailedWrite 0, [97; 98; 99]); Some (Done, [97; 98; 99; 100])] in H by (vm_compute; reflexivity).
  apply in_order_inv in H; [|discriminate]. destruct H as (r & c & v1 & rs & E & D & _ & H). injection E as <- <- <-.
  inversion D; subst; try discriminate. clear D. match goal with X : 0 = k \/ _ |- _ => destruct X; [subst k|discriminate] end.
  apply in_order_inv in H; [|discriminate]. destruct H as (r & c & v2 & rs & E & D & Sh & _). injection E as <- <- <-.
  inversion D; subst; try discriminate. specialize (Sh eq_refl). discriminate Sh.
Qed.
(* and with a buffer, characters can be written twice. *)
Theorem windows_buffered_text_file_conforms_refuted :
  ~ (forall e dynamic_eof more more_2 f buffer sub_buffer os,
       in_order any_line (tstep true true true dynamic_eof) tsettled tv_content (tfresh f) os
         (history (windows_buffered_text_file e dynamic_eof more more_2) (fun t => content (m_file (b_sub (t_impl t)))) (opened (buffered_init more (init f sub_buffer) buffer)) os)).
Proof.
  intros H. specialize (H second_fails false (fun _ => 0) (fun _ => 0) (File [] 0 0) [0; 0; 0; 0; 0] [0; 0] [Write [97; 98; 99; 100; 101]; Flush; Flush]).
  replace (history _ _ _ _) with [Some (Wrote, []); Some (Failed, [97; 98; 99; 100]); Some (Done, [97; 98; 99; 100; 97; 98; 99; 100; 101])] in H by (vm_compute; reflexivity).
  apply in_order_inv in H; [|exact I]. destruct H as (r & c & v1 & rs & E & D & _ & H). injection E as <- <- <-. inversion D; subst; try discriminate. clear D.
  apply in_order_inv in H; [|exact I]. destruct H as (r & c & v2 & rs & E & D & _ & H). injection E as <- <- <-. inversion D; subst; try discriminate. clear D.
  apply in_order_inv in H; [|exact I]. destruct H as (r & c & v3 & rs & E & D & Sh & _). injection E as <- <- <-. inversion D; subst; try discriminate.
  specialize (Sh eq_refl). discriminate Sh.
Qed.

(* C174: if nothing fails in the actual file, the contents are as they should be with Windows newlines too, and no operation fails. *)
Lemma tstep_reliable : forall w dyn v o r v', tstep w false false dyn v o r v' -> tstep w true false dyn v o r v'.
Proof. intros w dyn v o r v' H. inversion H; subst; try discriminate; econstructor; eauto. Qed.
Theorem windows_text_file_reliable : forall e dynamic_eof more f sub_buffer os, may_fail e false ->
  in_order no_line (tstep true true false dynamic_eof) tsettled tv_content (tfresh f) os
    (history (windows_text_file e dynamic_eof more) (fun t => content (m_file (t_impl t))) (opened (init f sub_buffer)) os).
Proof.
  intros e dyn more f sub_buffer os Fl. eapply in_order_does; [intros ? ? ? ?; apply tstep_reliable|]. apply windows_text_file_conforms_partial. exact Fl.
Qed.
Theorem windows_buffered_text_file_reliable : forall e dynamic_eof more more_2 f buffer sub_buffer os, may_fail e false ->
  in_order any_line (tstep true true false dynamic_eof) tsettled tv_content (tfresh f) os
    (history (windows_buffered_text_file e dynamic_eof more more_2) (fun t => content (m_file (b_sub (t_impl t)))) (opened (buffered_init more (init f sub_buffer) buffer)) os).
Proof.
  intros e dyn more more_2 f buffer sub_buffer os Fl. eapply in_order_does; [intros ? ? ? ?; apply tstep_reliable|].
  apply windows_buffered_text_file_conforms_partial. exact Fl.
Qed.
Example windows_buffered_text_file_reliable_ex :
  history (windows_buffered_text_file steady false (fun _ => 0) (fun _ => 0)) (fun t => content (m_file (b_sub (t_impl t))))
    (opened (buffered_init (fun _ => 0) (init (File [97; 13; 10; 98; 13; 99; 10] 0 0) [0; 0; 0]) [0; 0]))
    [ReadLine; Tell; ReadLine; ReadLine; Write [101; 10]; Flush; Seek 1; ReadAll] =
  let c := [97; 13; 10; 98; 13; 99; 10] in let c' := c ++ [101; 13; 10] in
  [Some (GotLine (Some [97]), c); Some (Told 3, c); Some (GotLine (Some [98; 13; 99]), c); Some (GotLine None, c); Some (Wrote, c);
   Some (Done, c'); Some (Done, c'); Some (GotChars [10; 98; 13; 99; 10; 101; 10], c')].
Proof. vm_compute. reflexivity. Qed.

Print Assumptions posix_file_conforms.
Print Assumptions buffered_posix_conforms.
Print Assumptions buffered_windows_conforms_partial.
Print Assumptions buffered_windows_reliable.
Print Assumptions buffered_windows_conforms_refuted.
Print Assumptions read_until_moves_refuted.
Print Assumptions read_until_starts_refuted.
Print Assumptions read_until_posix_partial.
Print Assumptions read_until_windows_partial.
Print Assumptions posix_text_file_conforms.
Print Assumptions posix_buffered_text_file_conforms.
Print Assumptions windows_text_file_conforms_partial.
Print Assumptions windows_buffered_text_file_conforms_partial.
Print Assumptions windows_text_file_conforms_refuted.
Print Assumptions windows_buffered_text_file_conforms_refuted.
Print Assumptions windows_text_file_reliable.
Print Assumptions windows_buffered_text_file_reliable.
