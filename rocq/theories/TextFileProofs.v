(* Lemmas on text files: the primitive implementations. *)
From Coq Require Import List Arith Bool Lia.
From Verif Require Import ArrLib NewlineModel NewlineSpec NewlineProofs WinFileModel WinFileSpec WinFileProofs TextFileModel TextFileSpec.
Import ListNotations.

(* ---- reading and writing with either kind of newlines ---- *)

Lemma extent_ones : forall s, extent (map (fun x : nat => (x, 1)) s) = length s.
Proof. induction s as [|x s IH]; [reflexivity|]. cbn [map extent fold_right snd length]. change (1 + extent (map (fun x : nat => (x, 1)) s) = S (length s)). lia. Qed.
Lemma fst_ones : forall s, map fst (map (fun x : nat => (x, 1)) s) = s.
Proof. intros s. rewrite map_map. apply map_id. Qed.

Section As.
  Variable w : bool.

  Lemma ras_det : forall s cs cs', reads_as w s cs -> reads_as w s cs' -> cs = cs'.
  Proof. intros s cs cs'. unfold reads_as. destruct w; [intros A B; exact (reads_det _ _ A _ B)|congruence]. Qed.
  Lemma ras_exists : forall s, exists cs, reads_as w s cs.
  Proof. intros s. unfold reads_as. destruct w; [apply reads_exists|eauto]. Qed.
  Lemma ras_skip : forall s cs n, reads_as w s cs -> reads_as w (skipn (extent (firstn n cs)) s) (skipn n cs).
  Proof.
    intros s cs n. unfold reads_as. destruct w; [intros R; apply reads_skip, R|]. intros ->.
    rewrite firstn_map, extent_ones, firstn_length, skipn_map. f_equal. destruct (Nat.le_ge_cases n (length s)) as [L|L].
    - rewrite Nat.min_l by assumption. reflexivity.
    - rewrite Nat.min_r by assumption. rewrite !skipn_all2 by lia. reflexivity.
  Qed.
  Lemma ras_extent_ge : forall s cs, reads_as w s cs -> forall n, length (firstn n cs) <= extent (firstn n cs).
  Proof.
    intros s cs. unfold reads_as. destruct w; [apply extent_ge|]. intros -> n. rewrite firstn_map, extent_ones, map_length. lia.
  Qed.
  Lemma ras_extent : forall s cs, reads_as w s cs -> extent cs = length s.
  Proof. intros s cs. unfold reads_as. destruct w; [apply reads_extent|]. intros ->. apply extent_ones. Qed.
  Lemma ras_length : forall s cs, reads_as w s cs -> length cs <= length s.
  Proof.
    intros s cs R. rewrite <- (ras_extent _ _ R). pose proof (ras_extent_ge _ _ R (length cs)) as H. rewrite firstn_all in H. exact H.
  Qed.
  Lemma was_app : forall a b, written_as w (a ++ b) = written_as w a ++ written_as w b.
  Proof. intros a b. unfold written_as. destruct w; [apply written_app|reflexivity]. Qed.
  Lemma was_nil : written_as w [] = [].
  Proof. unfold written_as. destruct w; reflexivity. Qed.

  Lemma put_as_put : forall v a b, put_as w (put_as w v a) b = put_as w v (a ++ b).
  Proof. intros v a b. unfold put_as. cbn [v_content v_pos]. rewrite overlay_app, was_app, app_length, Nat.add_assoc. reflexivity. Qed.
  Lemma put_as_nil : forall v, put_as w v [] = View Writing (v_content v) (v_pos v) 0.
  Proof. intros v. unfold put_as. rewrite was_nil. cbn. rewrite Nat.add_0_r. reflexivity. Qed.
  Lemma put_as_mode : forall v m a s, put_as w (View m (v_content v) (v_pos v) a) s = put_as w v s.
  Proof. reflexivity. Qed.

  (* after the first n characters *)
  Lemma ras_further : forall c p cs n, reads_as w (skipn p c) cs -> reads_as w (skipn (p + extent (firstn n cs)) c) (skipn n cs).
  Proof. intros c p cs n R. rewrite <- skipn_add. apply ras_skip, R. Qed.

  Lemma moved_as_of : forall v n v' cs, moved_as w v n v' -> reads_as w (skipn (v_pos v) (v_content v)) cs ->
    v' = View (v_mode v) (v_content v) (v_pos v + extent (firstn n cs)) (v_ahead v - n).
  Proof. intros v n v' cs (cs' & R' & ->) R. rewrite (ras_det _ _ _ R R'). reflexivity. Qed.
End As.

Lemma skipn_short : forall {A} (l : list A) n, skipn n l = [] -> length l <= n.
Proof. intros A l n E. pose proof (skipn_length n l) as L. rewrite E in L. cbn in L. lia. Qed.
Lemma skipn_none : forall {A} (l : list A) n, length l <= n -> skipn n l = [].
Proof. intros A l n L. apply skipn_all2. assumption. Qed.

(* ---- what is required of an implementation ---- *)

Section Contract.
  Context {T : Type}.

  Record implements (w reports flaky : bool) (sub : T -> op -> option (result * T)) (file_of : T -> list nat) (R : T -> view -> Prop) : Prop := {
    im_step : forall s v o, R s v -> legal v o -> exists r s' v', sub s o = Some (r, s') /\ gstep w reports flaky v o r v' /\ R s' v';
    im_content : forall s v, R s v -> v_mode v <> Writing -> file_of s = v_content v;
    (* flushing when there is nothing to flush *)
    im_idle : forall s v, R s v -> v_mode v = Neutral ->
      exists s1 s2, sub s (OpWrite [] 0) = Some (ResWrote 0, s1) /\ sub s1 OpFlush = Some (ResDone, s2) /\ R s2 v;
    im_ahead : forall s v, R s v -> v_mode v <> Reading -> v_ahead v = 0;
    im_within : forall s v cs, R s v -> reads_as w (skipn (v_pos v) (v_content v)) cs -> v_ahead v <= length cs
  }.
End Contract.

(* ---- the POSIX implementation ---- *)

Definition posix_rel (s : posix) (v : view) : Prop :=
  content (p_file s) = v_content v /\ position (p_file s) = v_pos v + v_ahead v /\ p_retain s = v_ahead v /\
  (v_mode v <> Reading -> v_ahead v = 0) /\ v_ahead v <= length (skipn (v_pos v) (v_content v)).

Lemma firstn_min_len : forall {A} (l : list A) n, firstn n l = firstn (length (firstn n l)) l.
Proof. intros A. exact (@firstn_self A). Qed.

Ltac pr := unfold posix_rel, put_as, written_as; cbn [v_content v_pos v_ahead v_mode p_file p_retain content position length]; repeat split; try assumption; try reflexivity; try congruence; try lia.

Lemma posix_ok : forall e flaky s v o, (forall n, fails e n = true -> flaky = true) -> posix_rel s v -> legal v o ->
  exists r s' v', posix_exec e s o = Some (r, s') /\ gstep false true flaky v o r v' /\ posix_rel s' v'.
Proof.
  intros e flaky [[c p k] n] [m c' p' a] o Fl (H1 & H2 & H3 & H4 & H5) Lg. cbn in H1, H2, H3, H4, H5. subst c' p n.
  assert (M : forall a', a' <= a -> moved_as false (View m c p' a) a' (View m c (p' + a') (a - a'))).
  { intros a' L. exists (map (fun x => (x, 1)) (skipn p' c)). split; [reflexivity|]. cbn [v_pos v_content v_mode v_ahead].
    rewrite firstn_map, extent_ones, firstn_length_le by lia. reflexivity. }
  destruct o as [size dyn| |n| | |pos|data n_0| |]; cbn [legal v_mode v_ahead] in Lg; cbn [posix_exec p_file p_retain].
  - unfold try_read_some. cbn [clock content position]. destruct (fails e k) eqn:Fk; [apply Fl in Fk|clear Fk].
    + do 3 eexists. split; [reflexivity|]. split; [apply gstep_read_failed; exact Fk|]. pr.
    + set (d := firstn _ (skipn (p' + a) c)). do 3 eexists. split; [reflexivity|].
      assert (D : length d <= length (skipn (p' + a) c)) by (unfold d; rewrite firstn_length; lia).
      assert (D2 : d = firstn (length d) (skipn (p' + a) c)) by (unfold d; apply firstn_self).
      split.
      * apply gstep_read with (cs := map (fun x => (x, 1)) (skipn p' c)); cbn [v_pos v_content v_ahead].
        -- reflexivity.
        -- rewrite skipn_map, firstn_map, fst_ones, skipn_add. exact D2.
        -- unfold d. rewrite firstn_length. lia.
        -- destruct size as [|size]; [left; reflexivity|]. destruct (skipn (p' + a) c) as [|x rest] eqn:Q.
           ++ right; right. left. rewrite skipn_map, skipn_add, Q. reflexivity.
           ++ right; left. unfold d. destruct (max 1 (amount e k)) as [|j] eqn:J; [lia|]. cbn. discriminate.
      * pr.
        rewrite <- skipn_add, skipn_length in D. lia.
  - do 3 eexists. split; [reflexivity|]. split; [apply gstep_advance_all; cbn [v_ahead]; apply M; lia|].
    rewrite Nat.sub_diag. pr.
  - destruct Lg as [_ Lg]. rewrite (proj2 (Nat.leb_le n a) Lg). do 3 eexists. split; [reflexivity|]. split; [apply gstep_advance, M, Lg|].
    unfold posix_rel. cbn [v_content v_pos v_ahead v_mode p_file p_retain content position]. rewrite skipn_length in H5 |- *. repeat split; try lia. intros N. specialize (H4 N). lia.
  - destruct (Nat.ltb_spec 0 a) as [L|L].
    + unfold try_seek. cbn [clock content position]. destruct (fails e k) eqn:Fk; [apply Fl in Fk|clear Fk].
      * do 3 eexists. split; [reflexivity|]. split; [apply gstep_discard_failed; exact Fk|]. pr.
      * do 3 eexists. split; [reflexivity|]. split; [apply gstep_discard|]. pr.
    + do 3 eexists. split; [reflexivity|]. split; [apply gstep_discard|]. pr.
  - unfold try_seek. cbn [clock content position]. destruct (fails e k) eqn:Fk; [apply Fl in Fk|clear Fk].
    + do 3 eexists. split; [reflexivity|]. split; [apply gstep_tell_read_failed; exact Fk|]. pr.
    + rewrite (proj2 (Nat.leb_le a (p' + a))) by lia. replace (p' + a - a) with p' by lia. do 3 eexists. split; [reflexivity|].
      split; [apply gstep_tell_read|]. pr.
  - unfold try_seek. cbn [clock content position]. destruct (fails e k) eqn:Fk; [apply Fl in Fk|clear Fk].
    + do 3 eexists. split; [reflexivity|]. split; [apply gstep_seek_failed; exact Fk|]. pr.
    + do 3 eexists. split; [reflexivity|]. split; [apply gstep_seek|]. pr.
  - specialize (H4 Lg). subst a. rewrite Nat.add_0_r. unfold try_write. cbn [clock content position].
    destruct data as [|x data].
    + do 3 eexists. split; [reflexivity|]. split; [apply (gstep_write false true flaky (View m c p' 0) [] n_0)|]. pr.
    + destruct (fails e k) eqn:Fk; [apply Fl in Fk|clear Fk].
      * set (d := x :: data). set (q := min (length d - 1) (amount e k)).
        assert (Q : q < length d) by (unfold q; cbn; lia).
        do 3 eexists. split; [reflexivity|]. split; [apply (gstep_write_failed false true flaky (View m c p' 0) d n_0 q q Fk Q); left; reflexivity|].
        unfold posix_rel, put_as, written_as. cbn [v_content v_pos v_ahead v_mode p_file p_retain content position]. rewrite firstn_length_le by lia. repeat split; try lia; try congruence.
      * do 3 eexists. split; [reflexivity|]. split; [apply gstep_write|]. pr.
  - specialize (H4 Lg). subst a. do 3 eexists. split; [reflexivity|]. split; [apply gstep_flush|]. pr.
  - specialize (H4 Lg). subst a. unfold try_seek. cbn [clock content position]. destruct (fails e k) eqn:Fk; [apply Fl in Fk|clear Fk].
    + do 3 eexists. split; [reflexivity|]. split; [apply gstep_tell_write_failed; exact Fk|]. pr.
    + do 3 eexists. split; [reflexivity|]. rewrite Nat.add_0_r. split; [apply (gstep_tell_write false true flaky (View m c p' 0))|]. pr.
Qed.

Lemma posix_implements : forall e flaky, (forall n, fails e n = true -> flaky = true) -> implements false true flaky (posix_exec e) (fun s => content (p_file s)) posix_rel.
Proof.
  intros e flaky Fl. constructor.
  - intros s v o. apply posix_ok. exact Fl.
  - intros s v H _. apply H.
  - intros [[c p k] n] v H M. exists (Posix (File c p k) n), (Posix (File c p k) n). split; [reflexivity|]. split; [reflexivity|exact H].
  - intros s v H M. apply H, M.
  - intros s v cs H ->. rewrite map_length. apply H.
Qed.

(* ---- the Windows implementation ---- *)

Lemma step_gstep : forall flaky v o r v', (failed r = true -> flaky = true) -> step v o r v' -> gstep true false flaky v o r v'.
Proof.
  intros flaky v o r v' Fl G. destruct G; cbn [failed] in Fl; try (constructor; auto; fail).
  - apply gstep_read with (cs := cs); try assumption. destruct H2 as [H2|[H2|[H2|[H2 H3]]]]; [left|right; left|right; right; left|right; right; right]; auto.
    apply skipn_none. assumption.
Qed.

Lemma win_implements : forall e flaky, (forall n, fails e n = true -> flaky = true) -> implements true false flaky (exec e) (fun s => content (m_file s)) rel.
Proof.
  intros e flaky Fl. constructor.
  - intros s v o H Lg. destruct (exec_ok e s v o H Lg) as (r & s' & v' & E & G & H'). exists r, s', v'. split; [exact E|]. split; [|exact H'].
    apply step_gstep; [|exact G]. intros F. destruct flaky; [reflexivity|]. rewrite (exec_reliable e s o r s') in F; [exact F| |exact E].
    intros n. destruct (fails e n) eqn:Q; [|reflexivity]. apply Fl in Q. discriminate.
  - intros s v H M. apply rel_content; assumption.
  - intros s v H M. assert (W : writing s v) by (apply rel_writing; [congruence|assumption]).
    unfold rel in H. rewrite M in H. destruct H as [H Z]. destruct s as [f buffer b en cu rs rc].
    cbn in Z. destruct Z as (Z1 & Z2 & Z3 & Z4 & Z5).
    exists (Impl f buffer b en cu rs rc), (Impl f buffer b en cu rs rc). subst.
    assert (E : place buffer 0 [] = buffer) by reflexivity.
    split; [|split]; [| |unfold rel; rewrite M; split; [exact H|cbn; auto]].
    + reflexivity.
    + reflexivity.
  - intros s v H M. apply rel_writing in H; [|assumption]. apply H.
  - intros s v cs H R. destruct (v_mode v) eqn:M.
    + apply rel_reading in H; [|congruence]. destruct (rd_chars _ _ H) as (cs' & R' & A & _). rewrite (reads_det _ _ R _ R'). exact A.
    + apply rel_reading in H; [|congruence]. destruct (rd_chars _ _ H) as (cs' & R' & A & _). rewrite (reads_det _ _ R _ R'). exact A.
    + apply rel_writing in H; [|congruence]. rewrite (wr_ahead _ _ H). lia.
Qed.
