(* Lemmas on the primitive text file implementation with Windows newlines. *)
From Coq Require Import List Arith Bool Lia.
From Verif Require Import ArrLib NewlineModel NewlineSpec NewlineProofs NewlineProps WinFileModel WinFileSpec.
Import ListNotations.

(* ---- lists ---- *)

Lemma skipn_add : forall {A} (l : list A) a b, skipn a (skipn b l) = skipn (b + a) l.
Proof.
  intros A l a b. revert l. induction b as [|b IH]; intros l; [reflexivity|].
  destruct l as [|x l]; [rewrite !skipn_nil; reflexivity|]. cbn. apply IH.
Qed.
Lemma firstn_add : forall {A} (l : list A) a b, firstn (a + b) l = firstn a l ++ firstn b (skipn a l).
Proof.
  intros A l a b. revert l. induction a as [|a IH]; intros l; [reflexivity|].
  destruct l as [|x l]; [cbn; rewrite !firstn_nil; reflexivity|]. cbn. f_equal. apply IH.
Qed.
Lemma skipn_firstn_app : forall {A} (a b : list A) n, length a = n -> skipn n (a ++ b) = b.
Proof. intros A a b n <-. rewrite skipn_app, Nat.sub_diag, skipn_all. reflexivity. Qed.
Lemma firstn_len_app : forall {A} (a b : list A) n, length a = n -> firstn n (a ++ b) = a.
Proof. intros A a b n <-. rewrite firstn_app, Nat.sub_diag, firstn_all. apply app_nil_r. Qed.

Lemma firstn_self : forall {A} (l : list A) n, firstn n l = firstn (length (firstn n l)) l.
Proof.
  intros A l n. rewrite firstn_length. destruct (Nat.le_ge_cases n (length l)) as [L|L]; [rewrite Nat.min_l by assumption; reflexivity|].
  rewrite Nat.min_r by assumption. rewrite firstn_all. apply firstn_all2. assumption.
Qed.

Definition held (s : impl) : list nat := skipn (m_begin s) (firstn (m_end s) (m_buffer s)).

Lemma held_length : forall s, m_end s <= length (m_buffer s) -> length (held s) = m_end s - m_begin s.
Proof. intros s L. unfold held. rewrite skipn_length, firstn_length_le by assumption. reflexivity. Qed.

(* ---- reading ---- *)

Record reading (s : impl) (v : view) : Prop := {
  rd_content : content (m_file s) = v_content v;
  rd_order : m_begin s <= m_curr s <= m_end s /\ m_end s <= length (m_buffer s);
  rd_held : held s = firstn (m_end s - m_begin s) (skipn (v_pos v) (v_content v));
  rd_position : position (m_file s) = v_pos v + (m_end s - m_begin s);
  rd_retain : m_retain_size s = v_ahead v;
  rd_chars : exists cs, reads (skipn (v_pos v) (v_content v)) cs /\ v_ahead v <= length cs /\
    m_curr s - m_begin s = extent (firstn (v_ahead v) cs) /\ m_retain_clear s <= v_ahead v /\
    ~ In (10, 2) (skipn (m_retain_clear s) (firstn (v_ahead v) cs))
}.

Lemma held_split : forall s v, reading s v ->
  skipn (v_pos v) (v_content v) = held s ++ skipn (position (m_file s)) (v_content v).
Proof.
  intros s v H. rewrite (rd_held _ _ H), (rd_position _ _ H), <- skipn_add. symmetry. apply firstn_skipn.
Qed.

Lemma unread_held : forall s, m_begin s <= m_curr s <= m_end s -> m_end s <= length (m_buffer s) ->
  skipn (m_curr s) (firstn (m_end s) (m_buffer s)) = skipn (m_curr s - m_begin s) (held s).
Proof. intros s L1 L2. unfold held. rewrite skipn_add. f_equal. lia. Qed.

Lemma skipn_app_le : forall {A} (a b : list A) n, n <= length a -> skipn n (a ++ b) = skipn n a ++ b.
Proof. intros A a b n L. rewrite skipn_app. replace (n - length a) with 0 by lia. reflexivity. Qed.

(* the bytes that are not yet read, and the characters of them *)
Lemma unread_reads : forall s v cs, reading s v -> reads (skipn (v_pos v) (v_content v)) cs ->
  reads (skipn (m_curr s) (firstn (m_end s) (m_buffer s)) ++ skipn (position (m_file s)) (v_content v)) (skipn (v_ahead v) cs).
Proof.
  intros s v cs H R. destruct (rd_order _ _ H) as [O1 O2]. rewrite unread_held by assumption.
  destruct (rd_chars _ _ H) as (cs' & R' & _ & E & _). rewrite (reads_det _ _ R' _ R) in E.
  rewrite <- skipn_app_le by (rewrite held_length by assumption; lia).
  rewrite <- (held_split s v H), E. apply reads_skip. assumption.
Qed.

Lemma last_pair_exists : forall cs, In (10, 2) cs -> exists m, last_pair cs m.
Proof.
  induction cs as [|c cs IH]; intros I; [destruct I|]. destruct (some_pair_dec cs) as [J|J].
  - destruct (IH J) as (m & a & b & -> & -> & N). exists (S (length a) + 1), (c :: a), b. auto.
  - destruct I as [->|I]; [|contradiction]. exists 1, [], cs. auto.
Qed.

Lemma in_skipn_app : forall {A} (x : A) k a b, In x (skipn k (a ++ b)) -> k <= length a -> In x (skipn k a) \/ In x b.
Proof. intros A x k a b I L. rewrite skipn_app_le in I by assumption. apply in_app_or. assumption. Qed.

(* Decoding *)
Lemma read_decode : forall s v eod size, reading s v -> (eod = true -> length (v_content v) <= position (m_file s)) ->
  exists curr out clear,
    decode (firstn (m_end s) (m_buffer s)) (m_curr s) eod (repeat 0 size) 0 (m_retain_size s) (m_retain_clear s) =
      Some (curr, out ++ repeat 0 (size - length out), length out, clear) /\ length out <= size /\
    reading (Impl (m_file s) (m_buffer s) (m_begin s) (m_end s) curr (m_retain_size s + length out) clear)
      (View Reading (v_content v) (v_pos v) (v_ahead v + length out)) /\
    (forall cs, reads (skipn (v_pos v) (v_content v)) cs -> out = map fst (firstn (length out) (skipn (v_ahead v) cs))) /\
    (out = [] -> curr = m_curr s /\ clear = m_retain_clear s) /\
    (out <> [] \/ size = 0 \/ m_curr s = m_end s \/ (eod = false /\ skipn (m_curr s) (firstn (m_end s) (m_buffer s)) = [13])).
Proof.
  intros s v eod size H Eod. pose proof (rd_order _ _ H) as [O1 O2].
  assert (Lf : length (firstn (m_end s) (m_buffer s)) = m_end s) by (apply firstn_length_le; lia).
  destruct (newline_decode_exact (firstn (m_end s) (m_buffer s)) (m_curr s) eod (repeat 0 size) 0 (m_retain_size s) (m_retain_clear s))
    as (n & out & k & E & L1 & L2 & D & M); [lia|lia|].
  rewrite repeat_length in L1. cbn [Nat.add] in *.
  destruct (rd_chars _ _ H) as (cs & R & A1 & A2 & A3 & A4).
  pose proof (unread_reads s v cs H R) as U.
  assert (More : eod = true -> skipn (position (m_file s)) (v_content v) = []) by (intros Q; apply skipn_all2; auto).
  destruct (D _ _ More U) as (D1 & D2 & D3 & D4). cbn zeta in *.
  assert (Lo : length (firstn (length out) (skipn (v_ahead v) cs)) = length out) by (rewrite D1 at 2; rewrite map_length; reflexivity).
  rewrite firstn_length, skipn_length in Lo.
  assert (F : firstn (v_ahead v + length out) cs = firstn (v_ahead v) cs ++ firstn (length out) (skipn (v_ahead v) cs)) by apply firstn_add.
  exists (m_curr s + n), out, k. split.
  { rewrite E. cbn [firstn app]. replace (skipn (length out) (repeat 0 size)) with (repeat 0 (size - length out)); [reflexivity|].
    clear. revert size. induction (length out) as [|a IH]; intros [|size]; try reflexivity. apply IH. }
  split; [assumption|]. split; [|split; [|split]].
  - constructor; cbn [m_file m_buffer m_begin m_end m_curr m_retain_size m_retain_clear v_content v_pos v_ahead v_mode].
    + apply H.
    + lia.
    + apply (rd_held _ _ H).
    + apply (rd_position _ _ H).
    + rewrite (rd_retain _ _ H). reflexivity.
    + exists cs. split; [assumption|]. split; [lia|]. rewrite F, extent_app, <- D2.
      split; [lia|]. rewrite (rd_retain _ _ H) in D3.
      destruct (some_pair_dec (firstn (length out) (skipn (v_ahead v) cs))) as [I|I].
      * destruct (last_pair_exists _ I) as (m & P). rewrite (D3 m P). destruct P as (a & b & E2 & -> & N).
        assert (La : length a + 1 <= length out).
        { pose proof (f_equal (@length _) E2) as Q. rewrite firstn_length, skipn_length, app_length in Q. cbn in Q. lia. }
        split; [lia|]. rewrite E2. intros J. apply N.
        replace (firstn (v_ahead v) cs ++ a ++ (10, 2) :: b) with ((firstn (v_ahead v) cs ++ a ++ [(10, 2)]) ++ b) in J
          by (rewrite <- !app_assoc; reflexivity).
        rewrite skipn_firstn_app in J; [assumption|]. rewrite !app_length, firstn_length_le by assumption. cbn. lia.
      * rewrite (D4 I). split; [lia|]. intros J. apply in_skipn_app in J; [|rewrite firstn_length_le by assumption; lia].
        destruct J; contradiction.
  - intros cs' R'. rewrite (reads_det _ _ R' _ R). exact D1.
  - intros ->. cbn in D2. split; [lia|]. apply D4. intros [].
  - destruct M as [M|[M|[-> M]]].
    + rewrite repeat_length in M. destruct out as [|x out]; [right; left; cbn in M; congruence|left; discriminate].
    + destruct out as [|x out]; [|left; discriminate]. cbn in D2. right. right. left. lia.
    + destruct out as [|x out]; [|left; discriminate]. cbn in D2. right. right. right. split; [reflexivity|].
      rewrite <- M. f_equal. lia.
Qed.

(* moving data to the start of the buffer, and expanding the buffer *)
Definition shifted (e : env) (s : impl) : impl :=
  let buffer := place (m_buffer s) 0 (held s) in
  Impl (m_file s) (if m_end s - m_begin s =? length buffer then expand_buffer e buffer else buffer) 0
    (m_end s - m_begin s) (m_curr s - m_begin s) (m_retain_size s) (m_retain_clear s).

Lemma place_length : forall b o d, o + length d <= length b -> length (place b o d) = length b.
Proof. intros b o d L. unfold place. rewrite !app_length, firstn_length_le, skipn_length by lia. lia. Qed.

Lemma shifted_held : forall e s, m_end s <= length (m_buffer s) ->
  held (shifted e s) = held s /\ m_end (shifted e s) < length (m_buffer (shifted e s)).
Proof.
  intros e s L. pose proof (held_length s L) as Lh.
  assert (Lp : length (place (m_buffer s) 0 (held s)) = length (m_buffer s)) by (apply place_length; lia).
  assert (Fp : firstn (m_end s - m_begin s) (place (m_buffer s) 0 (held s)) = held s)
    by (unfold place; cbn [firstn app Nat.add]; apply firstn_len_app; assumption).
  unfold shifted, held at 1. cbn [m_begin m_end m_buffer skipn]. rewrite Lp. split.
  - destruct (m_end s - m_begin s =? length (m_buffer s)); [|exact Fp].
    unfold expand_buffer. rewrite firstn_app, Fp. rewrite Lp. replace (m_end s - m_begin s - length (m_buffer s)) with 0 by lia.
    apply app_nil_r.
  - destruct (Nat.eqb_spec (m_end s - m_begin s) (length (m_buffer s))) as [Q|Q]; [|lia].
    unfold expand_buffer. rewrite app_length, repeat_length, Lp. lia.
Qed.

Lemma shifted_reading : forall e s v, reading s v -> reading (shifted e s) v.
Proof.
  intros e s v H. pose proof (rd_order _ _ H) as [O1 O2]. destruct (shifted_held e s O2) as [S1 S2]. destruct H as [H1 H2 H3 H4 H5 H6].
  constructor.
  - assumption.
  - cbn [shifted m_begin m_curr m_end] in *. lia.
  - rewrite S1, H3. cbn. f_equal. lia.
  - cbn. rewrite H4. lia.
  - assumption.
  - cbn [shifted m_begin m_curr m_retain_clear]. rewrite Nat.sub_0_r. assumption.
Qed.

(* adding what is read from the file *)
Lemma extended_reading : forall s v d, reading s v -> m_begin s = 0 -> m_end s + length d <= length (m_buffer s) ->
  d = firstn (length d) (skipn (position (m_file s)) (content (m_file s))) -> forall c,
  reading (Impl (File (content (m_file s)) (position (m_file s) + length d) c) (place (m_buffer s) (m_end s) d) 0 (m_end s + length d)
    (m_curr s) (m_retain_size s) (m_retain_clear s)) v.
Proof.
  intros s v d H B L E c. pose proof (rd_order _ _ H) as [O1 O2]. pose proof (held_split s v H) as Sp.
  assert (Hh : held s = firstn (m_end s) (m_buffer s)) by (unfold held; rewrite B; reflexivity).
  assert (Lf : length (firstn (m_end s) (m_buffer s)) = m_end s) by (apply firstn_length_le; assumption).
  constructor; cbn [m_file m_buffer m_begin m_end m_curr m_retain_size m_retain_clear content position].
  - apply H.
  - rewrite place_length by assumption. lia.
  - unfold held. cbn [m_file m_buffer m_begin m_end skipn]. rewrite Nat.sub_0_r, Sp, Hh. unfold place. rewrite app_assoc.
    rewrite firstn_len_app by (rewrite app_length; lia).
    rewrite firstn_app, Lf. rewrite (firstn_all2 (n := m_end s + length d)) by lia. f_equal. replace (m_end s + length d - m_end s) with (length d) by lia.
    rewrite E at 1. rewrite (rd_content _ _ H). reflexivity.
  - rewrite (rd_position _ _ H), B. lia.
  - apply H.
  - destruct (rd_chars _ _ H) as (cs & A). exists cs. rewrite B in A. exact A.
Qed.

Lemma reads_nil : forall cs, reads [] cs -> cs = [].
Proof. intros cs R. inversion R. reflexivity. Qed.
Lemma reads_cr : forall cs, reads [13] cs -> cs = [(13, 1)].
Proof.
  intros cs R. apply reads_single in R; [|intros [_ [r E]]; discriminate]. destruct R as (cs' & -> & R).
  rewrite (reads_nil _ R). reflexivity.
Qed.

Definition as_result (r : read_result) : result := match r with ReadOk chars => ResRead chars | ReadFailed => ResFailed end.

Lemma reading_mode : forall s m m' c p a, reading s (View m c p a) -> reading s (View m' c p a).
Proof. intros s m m' c p a [H1 H2 H3 H4 H5 H6]. constructor; assumption. Qed.

Lemma read_loop_ok : forall e fuel s v eof size dyn, reading s v ->
  (eof = true -> 1 <= fuel /\ length (v_content v) <= position (m_file s) /\ m_curr s < m_end s) ->
  (eof = false -> 4 <= fuel + min 2 (m_end s - m_curr s)) ->
  exists r s' v', read_loop e fuel s eof size dyn = Some (r, s') /\ step v (OpReadAhead size dyn) (as_result r) v' /\
    v_mode v' = Reading /\ reading s' v'.
Proof.
  induction fuel as [|fuel IH]; intros s v eof size dyn H A B.
  { destruct eof; [destruct (A eq_refl); lia|]. specialize (B eq_refl). lia. }
  pose proof (rd_order _ _ H) as [O1 O2]. cbn [read_loop]. rewrite (proj2 (Nat.leb_le _ _) O2). cbn [negb].
  destruct (read_decode s v eof size H ltac:(intros Q; apply A, Q)) as (curr & out & clear & E & Lo & H' & Ch & Z & M).
  rewrite E. cbn [obind]. cbn [m_file m_buffer m_begin m_end m_curr m_retain_size m_retain_clear].
  assert (Ret : length out > 0 \/ size = 0 -> exists r s' v',
    Some (ReadOk (firstn (length out) (out ++ repeat 0 (size - length out))),
      Impl (m_file s) (m_buffer s) (m_begin s) (m_end s) curr (m_retain_size s + length out) clear) = Some (r, s') /\
    step v (OpReadAhead size dyn) (as_result r) v' /\ v_mode v' = Reading /\ reading s' v').
  { intros Q. rewrite firstn_len_app by reflexivity. do 3 eexists. split; [reflexivity|]. split; [|split; [|exact H']]; [|reflexivity].
    destruct (reads_exists (skipn (v_pos v) (v_content v))) as (cs & R). cbn [as_result]. apply step_read with (cs := cs); auto.
    destruct Q as [Q|Q]; [right; left; destruct out; [cbn in Q; lia|discriminate]|left; assumption]. }
  destruct (Nat.ltb_spec 0 (length out)) as [P|P]; [apply Ret; auto|]. destruct (Nat.eqb_spec size 0) as [P2|P2]; [apply Ret; auto|].
  cbn [orb]. clear Ret. assert (out = []) by (destruct out; [reflexivity|cbn in P; lia]). subst out.
  destruct (Z eq_refl) as [-> ->]. clear Z Ch. destruct M as [M|[M|M]]; [congruence|congruence|].
  destruct eof.
  { exfalso. destruct M as [M|[M _]]; [|discriminate]. destruct (A eq_refl) as (_ & _ & G). lia. }
  specialize (B eq_refl). destruct (rd_order _ _ H') as [O3 O4]. cbn [m_begin m_curr m_end] in O3.
  rewrite (proj2 (Nat.leb_le _ _) (proj1 O3)). cbn [negb].
  fold (held s).
  set (b2 := if m_end s - m_begin s =? length (place (m_buffer s) 0 (held s)) then expand_buffer e (place (m_buffer s) 0 (held s)) else place (m_buffer s) 0 (held s)).
  assert (S2 : reading (shifted e s) v) by (apply shifted_reading; assumption).
  destruct (shifted_held e s O2) as [_ Sl]. change (m_end s - m_begin s < length b2) in Sl.
  cbn [length] in *. rewrite Nat.add_0_r in *.
  unfold try_read_some. destruct (fails e (clock (m_file s))).
  { exists ReadFailed. do 2 eexists. split; [reflexivity|]. split; [apply step_read_failed|]. split; [reflexivity|].
    destruct S2 as [T1 T2 T3 T4 T5 T6]. constructor; assumption. }
  set (d := firstn (min (length b2 - (m_end s - m_begin s)) (max 1 (amount e (clock (m_file s))))) (skipn (position (m_file s)) (content (m_file s)))).
  assert (Ld : length d <= length b2 - (m_end s - m_begin s)) by (unfold d; rewrite firstn_length; lia).
  assert (S3 : reading (Impl (File (content (m_file s)) (position (m_file s) + length d) (S (clock (m_file s)))) (place b2 (m_end s - m_begin s) d) 0
      (m_end s - m_begin s + length d) (m_curr s - m_begin s) (m_retain_size s) (m_retain_clear s)) v).
  { apply (extended_reading (shifted e s) v d S2); [reflexivity|change (m_end s - m_begin s + length d <= length b2); lia|].
    cbn [shifted m_file]. apply firstn_self. }
  set (s3 := Impl (File (content (m_file s)) (position (m_file s) + length d) (S (clock (m_file s)))) (place b2 (m_end s - m_begin s) d) 0
      (m_end s - m_begin s + length d) (m_curr s - m_begin s) (m_retain_size s) (m_retain_clear s)) in *.
  assert (U : m_end s - m_curr s <= 1).
  { destruct M as [M|[_ M]]; [lia|]. pose proof (f_equal (@length _) M) as Q. rewrite skipn_length, firstn_length_le in Q by assumption. cbn in Q. lia. }
  destruct (Nat.ltb_spec 0 (length d)) as [P3|P3].
  { apply IH; [assumption|discriminate|]. intros _. cbn [s3 m_end m_curr]. lia. }
  (* end of file *)
  assert (End : length (v_content v) <= position (m_file s)).
  { unfold d in P3. rewrite firstn_length, skipn_length, (rd_content _ _ H) in P3. lia. }
  assert (Rest : skipn (position (m_file s)) (v_content v) = []) by (apply skipn_all2; assumption).
  destruct (reads_exists (skipn (v_pos v) (v_content v))) as (cs & R).
  pose proof (unread_reads s v cs H R) as Un. rewrite Rest, app_nil_r in Un.
  assert (Stop : (length cs <= v_ahead v \/ (dyn = true /\ skipn (v_ahead v) cs = [(13, 1)])) ->
    exists r s' v', Some (ReadOk [], s3) = Some (r, s') /\ step v (OpReadAhead size dyn) (as_result r) v' /\ v_mode v' = Reading /\ reading s' v').
  { intros Q. exists (ReadOk []), s3, (View Reading (v_content v) (v_pos v) (v_ahead v + 0)). split; [reflexivity|]. split; [|split; [reflexivity|]].
    - cbn [as_result]. apply (step_read v size dyn [] cs); [assumption|reflexivity|cbn; lia|]. destruct Q as [Q|Q]; auto.
    - rewrite Nat.add_0_r. apply reading_mode with (m := v_mode v). destruct v; assumption. }
  cbn [s3 m_end m_curr]. destruct (Nat.eqb_spec (m_end s - m_begin s + length d) (m_curr s - m_begin s)) as [Q|Q].
  - cbn [orb]. apply Stop. left.
    assert (W : skipn (m_curr s) (firstn (m_end s) (m_buffer s)) = []) by (apply skipn_all2; rewrite firstn_length_le by assumption; lia).
    rewrite W in Un. apply reads_nil in Un. pose proof (f_equal (@length _) Un) as Q2. rewrite skipn_length in Q2. cbn in Q2. lia.
  - cbn [orb]. destruct M as [M|[_ M]]; [lia|]. rewrite M in Un. apply reads_cr in Un.
    destruct dyn; [apply Stop; auto|]. apply IH; [assumption| |discriminate]. intros _.
    split; [lia|]. cbn [s3 m_file position m_curr m_end]. split; lia.
Qed.

Lemma step_ahead : forall v n v', moved v n v' -> v_ahead v' = v_ahead v - n /\ v_mode v' = v_mode v.
Proof. intros v n v' (cs & _ & ->). auto. Qed.

(* ---- advancing ---- *)

Lemma advance_reading : forall s v n cs begin_ clear, reading s v -> n <= v_ahead v -> reads (skipn (v_pos v) (v_content v)) cs ->
  begin_ = m_begin s + extent (firstn n cs) -> clear <= v_ahead v - n ->
  ~ In (10, 2) (skipn clear (firstn (v_ahead v - n) (skipn n cs))) ->
  reading (Impl (m_file s) (m_buffer s) begin_ (m_end s) (m_curr s) (m_retain_size s - n) clear)
    (View (v_mode v) (v_content v) (v_pos v + extent (firstn n cs)) (v_ahead v - n)).
Proof.
  intros s v n cs b k H L R -> K N. pose proof (rd_order _ _ H) as [O1 O2].
  destruct (rd_chars _ _ H) as (cs' & R' & A1 & A2 & A3 & A4). rewrite (reads_det _ _ R' _ R) in *. clear cs' R'.
  assert (F : firstn (v_ahead v) cs = firstn n cs ++ firstn (v_ahead v - n) (skipn n cs)).
  { rewrite <- firstn_add. f_equal. lia. }
  pose proof (f_equal extent F) as X. rewrite extent_app in X.
  constructor; cbn [m_file m_buffer m_begin m_end m_curr m_retain_size m_retain_clear v_content v_pos v_ahead v_mode].
  - apply H.
  - lia.
  - unfold held. cbn [m_begin m_end m_buffer]. rewrite <- skipn_add. fold (held s).
    rewrite (rd_held _ _ H), <- skipn_add. rewrite skipn_firstn_comm. f_equal. lia.
  - rewrite (rd_position _ _ H). lia.
  - rewrite (rd_retain _ _ H). reflexivity.
  - exists (skipn n cs). split; [rewrite <- skipn_add; apply reads_skip; assumption|]. rewrite skipn_length. split; [lia|].
    split; [lia|]. split; assumption.
Qed.

Lemma extent_no_pair : forall s cs, reads s cs -> forall l, (exists a b, cs = a ++ l ++ b) -> ~ In (10, 2) l -> extent l = length l.
Proof.
  intros s cs R l (a & b & E) N. pose proof (reads_widths _ _ R) as W. rewrite E in W. apply Forall_app in W. destruct W as [_ W].
  apply Forall_app in W. destruct W as [W _]. clear - W N. induction W as [|[x w] l Q W IH]; [reflexivity|].
  change (w + extent l = S (length l)). rewrite IH by (intros I; apply N; right; assumption).
  destruct Q as [Q|Q]; [cbn in Q; lia|]. exfalso. apply N. left. assumption.
Qed.

Lemma skipn_skipn_in : forall {A} (x : A) (l : list A) a b, a <= b -> In x (skipn b l) -> In x (skipn a l).
Proof.
  intros A x l a b L I. replace b with (a + (b - a)) in I by lia. rewrite <- skipn_add in I.
  rewrite <- (firstn_skipn (b - a) (skipn a l)). apply in_or_app. right. assumption.
Qed.

Lemma advance_ok : forall s v n, reading s v -> n <= v_ahead v ->
  exists s' v', advance s n = Some s' /\ moved v n v' /\ reading s' v'.
Proof.
  intros s v n H L. pose proof (rd_order _ _ H) as [O1 O2].
  destruct (rd_chars _ _ H) as (cs & R & A1 & A2 & A3 & A4).
  assert (F : firstn (v_ahead v) cs = firstn n cs ++ firstn (v_ahead v - n) (skipn n cs)).
  { rewrite <- firstn_add. f_equal. lia. }
  pose proof (f_equal extent F) as X. rewrite extent_app in X.
  assert (Lt : length (firstn (v_ahead v - n) (skipn n cs)) = v_ahead v - n) by (apply firstn_length_le; rewrite skipn_length; lia).
  unfold advance. rewrite (rd_retain _ _ H).
  rewrite (proj2 (Nat.leb_le _ _) L), (proj2 (Nat.leb_le _ _) (proj1 O1)), (proj2 (Nat.leb_le _ _) (proj2 O1)). cbn [andb negb].
  destruct (Nat.leb_spec (m_retain_clear s) n) as [C|C].
  - assert (Np : ~ In (10, 2) (firstn (v_ahead v - n) (skipn n cs))).
    { intros I. apply A4. apply skipn_skipn_in with (b := n); [assumption|].
      rewrite F. rewrite skipn_firstn_app by (apply firstn_length_le; lia). assumption. }
    assert (W : extent (firstn (v_ahead v - n) (skipn n cs)) = v_ahead v - n).
    { rewrite <- Lt at 2. apply extent_no_pair with (1 := R); [|assumption].
      exists (firstn n cs), (skipn (v_ahead v) cs). rewrite app_assoc, <- F. symmetry. apply firstn_skipn. }
    do 2 eexists. split; [reflexivity|]. split; [exists cs; split; [assumption|reflexivity]|].
    rewrite <- (rd_retain _ _ H) at 2. apply advance_reading; try assumption; [lia|lia].
  - (* the characters of the retained data *)
    assert (Sim : simul_decode (firstn (m_curr s) (m_buffer s)) (m_begin s) n = Some (true, m_begin s + extent (firstn n cs))).
    { assert (Lc : length (firstn (m_curr s) (m_buffer s)) = m_curr s) by (apply firstn_length_le; lia).
      assert (P : skipn (m_begin s) (firstn (m_curr s) (m_buffer s)) = firstn (extent (firstn (v_ahead v) cs)) (skipn (v_pos v) (v_content v))).
      { rewrite <- A2. rewrite skipn_firstn_comm. rewrite (held_split s v H). rewrite firstn_app.
        rewrite held_length by assumption. replace (m_curr s - m_begin s - (m_end s - m_begin s)) with 0 by lia. rewrite app_nil_r.
        unfold held. rewrite skipn_firstn_comm, firstn_firstn. f_equal. lia. }
      (* reading of a prefix *)
      assert (Pre : forall k, exists cs', reads (firstn (extent (firstn k cs)) (skipn (v_pos v) (v_content v))) cs' /\
        (length cs' = length (firstn k cs) /\ forall j, extent (firstn j cs') = extent (firstn j (firstn k cs)))).
      { intros k. exists (firstn k cs). split; [|auto]. clear - R. revert k.
        induction R as [|s cs R IH|x s cs N R IH]; intros [|k]; cbn; try constructor.
        - change (reads (firstn (extent (firstn k cs)) s) (firstn k cs)). apply IH.
        - intros [-> [r E]]. apply N. split; [reflexivity|].
          destruct s as [|y s]; [rewrite firstn_nil in E; discriminate|]. change (fold_right _ 0 (firstn k cs)) with (extent (firstn k cs)) in E.
          destruct (extent (firstn k cs)); [discriminate|]. injection E as -> _. exists s. reflexivity.
        - change (reads (firstn (extent (firstn k cs)) s) (firstn k cs)). apply IH. }
      destruct (Pre (v_ahead v)) as (cs' & R' & L' & X'). rewrite <- P in R'.
      rewrite (newline_simul_decode_exact _ _ n cs'); [|lia|assumption].
      rewrite L', firstn_length_le by assumption. rewrite (proj2 (Nat.leb_le _ _) L). rewrite X', firstn_firstn, Nat.min_l by assumption. reflexivity. }
    rewrite Sim. cbn [obind]. rewrite (proj2 (Nat.leb_le _ _)) by lia. cbn [andb].
    do 2 eexists. split; [reflexivity|]. split; [exists cs; split; [assumption|reflexivity]|].
    rewrite <- (rd_retain _ _ H) at 1. apply advance_reading; try assumption; [reflexivity|lia|].
    intros I. apply A4. rewrite F. replace (m_retain_clear s) with (n + (m_retain_clear s - n)) by lia.
    rewrite <- skipn_add, skipn_firstn_app by (apply firstn_length_le; lia). assumption.
Qed.

Lemma advance_all_ok : forall s v, reading s v -> exists s' v', advance_all s = Some s' /\ moved v (v_ahead v) v' /\ reading s' v'.
Proof.
  intros s v H. pose proof (rd_order _ _ H) as [O1 O2]. unfold advance_all. rewrite (proj2 (Nat.leb_le _ _) (proj1 O1)).
  destruct (rd_chars _ _ H) as (cs & R & A1 & A2 & A3 & A4).
  do 2 eexists. split; [reflexivity|]. split; [exists cs; split; [assumption|reflexivity]|].
  pose proof (advance_reading s v (v_ahead v) cs (m_curr s) 0 H (le_n _) R ltac:(lia) ltac:(lia)) as Q.
  rewrite (rd_retain _ _ H), Nat.sub_diag in Q. rewrite Nat.sub_diag. apply Q. intros [].
Qed.

(* ---- writing ---- *)

Lemma overlay_nil : forall c p, overlay c p [] = c.
Proof. reflexivity. Qed.

Lemma overlay_eq : forall c p d, d <> [] -> overlay c p d = firstn p c ++ repeat 0 (p - length c) ++ d ++ skipn (p + length d) c.
Proof. intros c p [|x d] N; [congruence|reflexivity]. Qed.

Lemma overlay_app : forall c p a b, overlay (overlay c p a) (p + length a) b = overlay c p (a ++ b).
Proof.
  intros c p a b. destruct (list_eq_dec Nat.eq_dec a []) as [->|Na]; [cbn [length]; rewrite Nat.add_0_r; reflexivity|].
  destruct (list_eq_dec Nat.eq_dec b []) as [->|Nb]; [rewrite app_nil_r; reflexivity|].
  assert (Nab : a ++ b <> []) by (destruct a; [congruence|discriminate]).
  rewrite (overlay_eq c p a Na), (overlay_eq c p (a ++ b) Nab), overlay_eq by assumption.
  set (h := firstn p c ++ repeat 0 (p - length c)).
  assert (Lh : length h = p) by (unfold h; rewrite app_length, firstn_length, repeat_length; lia).
  replace (firstn p c ++ repeat 0 (p - length c) ++ a ++ skipn (p + length a) c) with ((h ++ a) ++ skipn (p + length a) c)
    by (unfold h; rewrite <- !app_assoc; reflexivity).
  replace (firstn p c ++ repeat 0 (p - length c) ++ (a ++ b) ++ skipn (p + length (a ++ b)) c) with ((h ++ a) ++ b ++ skipn (p + length (a ++ b)) c)
    by (unfold h; rewrite <- !app_assoc; reflexivity).
  assert (La : length (h ++ a) = p + length a) by (rewrite app_length; lia).
  rewrite firstn_len_app by assumption. f_equal.
  rewrite app_length, La. replace (p + length a - (p + length a + length (skipn (p + length a) c))) with 0 by lia. cbn [repeat app].
  f_equal. rewrite <- La at 1. rewrite skipn_app. rewrite skipn_all2 by lia. cbn [app].
  replace (length (h ++ a) + length b - length (h ++ a)) with (length b) by lia. rewrite skipn_add. f_equal. rewrite app_length. lia.
Qed.

Record writing (s : impl) (v : view) : Prop := {
  wr_order : m_begin s <= m_end s <= length (m_buffer s);
  wr_content : overlay (content (m_file s)) (position (m_file s)) (held s) = v_content v;
  wr_position : position (m_file s) + (m_end s - m_begin s) = v_pos v;
  wr_zero : m_curr s = 0 /\ m_retain_size s = 0 /\ m_retain_clear s = 0;
  wr_ahead : v_ahead v = 0
}.

Lemma writing_mode : forall s m m' c p a, writing s (View m c p a) -> writing s (View m' c p a).
Proof. intros s m m' c p a [H1 H2 H3 H4 H5]. constructor; assumption. Qed.

Lemma flush_ok : forall e s v, writing s v -> exists success s', do_flush e s = Some (success, s') /\ writing s' v /\
  m_buffer s' = m_buffer s /\ (success = true -> m_begin s' = 0 /\ m_end s' = 0 /\ content (m_file s') = v_content v).
Proof.
  intros e s v H. destruct (wr_order _ _ H) as [O1 O2]. unfold do_flush.
  rewrite (proj2 (Nat.leb_le _ _) O1), (proj2 (Nat.leb_le _ _) O2). cbn [andb negb]. fold (held s).
  pose proof (held_length s O2) as Lh. unfold try_write.
  destruct (held s) as [|x h] eqn:E.
  - do 2 eexists. split; [reflexivity|]. cbn in Lh. split; [|split; [reflexivity|]].
    + constructor; cbn [m_file m_buffer m_begin m_end m_curr m_retain_size m_retain_clear].
      * lia.
      * rewrite <- (wr_content _ _ H), E. reflexivity.
      * rewrite <- (wr_position _ _ H). lia.
      * apply (wr_zero _ _ H).
      * apply (wr_ahead _ _ H).
    + intros _. split; [reflexivity|]. split; [reflexivity|]. cbn. rewrite <- (wr_content _ _ H), E. reflexivity.
  - rewrite <- E in *. clear x h E. destruct (fails e (clock (m_file s))).
    + set (n := min (length (held s) - 1) (amount e (clock (m_file s)))).
      do 2 eexists. split; [reflexivity|]. split; [|split; [reflexivity|discriminate]].
      assert (Ln : n <= length (held s)) by (unfold n; lia).
      constructor; cbn [m_file m_buffer m_begin m_end m_curr m_retain_size m_retain_clear content position].
      * lia.
      * unfold held at 2. cbn [m_begin m_end m_buffer]. rewrite <- skipn_add. fold (held s).
        rewrite <- (wr_content _ _ H). rewrite <- (firstn_skipn n (held s)) at 3. rewrite <- overlay_app. rewrite firstn_length_le by assumption.
        reflexivity.
      * rewrite <- (wr_position _ _ H). lia.
      * apply (wr_zero _ _ H).
      * apply (wr_ahead _ _ H).
    + do 2 eexists. split; [reflexivity|]. split; [|split; [reflexivity|]].
      * constructor; cbn [m_file m_buffer m_begin m_end m_curr m_retain_size m_retain_clear content position].
        -- lia.
        -- unfold held at 2. cbn. apply (wr_content _ _ H).
        -- rewrite <- (wr_position _ _ H). lia.
        -- apply (wr_zero _ _ H).
        -- apply (wr_ahead _ _ H).
      * intros _. split; [reflexivity|]. split; [reflexivity|]. apply (wr_content _ _ H).
Qed.

(* characters are encoded into the buffer *)
Lemma encoded_writing : forall s v n buffer end_ data off, writing s v -> off <= length data ->
  encode data off (m_buffer s) (m_end s) = Some (off + n, buffer, end_) ->
  writing (Impl (m_file s) buffer (m_begin s) end_ (m_curr s) (m_retain_size s) (m_retain_clear s)) (put v (firstn n (skipn off data))) /\
  off + n <= length data /\
  (off + n = length data \/ length (m_buffer s) <= S end_) /\ (off + n = length data \/ 1 <= n \/ length (m_buffer s) <= S (m_end s)) /\
  length buffer = length (m_buffer s).
Proof.
  intros s v n buffer end_ data off H L E. destruct (wr_order _ _ H) as [O1 O2].
  destruct (newline_encode_exact data off (m_buffer s) (m_end s) L O2) as (n' & out & E' & L1 & -> & L2 & M).
  rewrite E' in E. injection E as En <- <-. assert (n' = n) by lia. subst n'. clear En E'.
  set (out := written (firstn n (skipn off data))) in *.
  assert (W2 : forall x, length (written [x]) <= 2) by (intros x; unfold written; cbn; destruct (x =? 10); cbn; lia).
  assert (Lb : length (place (m_buffer s) (m_end s) out) = length (m_buffer s)) by (apply place_length; assumption).
  fold (place (m_buffer s) (m_end s) out). split; [|split; [|split; [|split]]].
  - constructor; cbn [m_file m_buffer m_begin m_end m_curr m_retain_size m_retain_clear content position put v_content v_pos v_ahead].
    + lia.
    + fold out. rewrite <- (wr_content _ _ H).
      assert (Hh : held (Impl (m_file s) (place (m_buffer s) (m_end s) out) (m_begin s) (m_end s + length out) (m_curr s) (m_retain_size s) (m_retain_clear s)) = held s ++ out).
      { unfold held. cbn [m_begin m_end m_buffer]. unfold place. rewrite app_assoc, firstn_len_app.
        - rewrite skipn_app_le by (rewrite firstn_length_le; lia). reflexivity.
        - rewrite app_length, firstn_length_le by lia. reflexivity. }
      rewrite Hh. rewrite <- overlay_app. rewrite held_length by assumption. rewrite (wr_position _ _ H). reflexivity.
    + fold out. rewrite <- (wr_position _ _ H). lia.
    + apply (wr_zero _ _ H).
    + reflexivity.
  - lia.
  - destruct M as [M|(x & r & M1 & M2)]; [left; assumption|right]. specialize (W2 x). lia.
  - destruct M as [M|(x & r & M1 & M2)]; [left; assumption|right]. specialize (W2 x).
    destruct n as [|n]; [right|left; lia]. assert (Zo : length out = 0) by reflexivity. lia.
  - assumption.
Qed.

Lemma put_put : forall v a b, put (put v a) b = put v (a ++ b).
Proof.
  intros v a b. unfold put. cbn [v_content v_pos]. rewrite overlay_app, written_app, app_length, Nat.add_assoc. reflexivity.
Qed.

Lemma expanded_writing : forall e s v, writing s v ->
  writing (Impl (m_file s) (expand_buffer e (m_buffer s)) (m_begin s) (m_end s) (m_curr s) (m_retain_size s) (m_retain_clear s)) v.
Proof.
  intros e s v [H1 H2 H3 H4 H5]. constructor; cbn [m_file m_buffer m_begin m_end m_curr m_retain_size m_retain_clear]; try assumption.
  - unfold expand_buffer. rewrite app_length. lia.
  - rewrite <- H2. f_equal. unfold held. cbn [m_buffer m_begin m_end]. f_equal. unfold expand_buffer. rewrite firstn_app.
    replace (m_end s - length (m_buffer s)) with 0 by lia. apply app_nil_r.
Qed.

(* enough rounds *)
Definition rounds (size end_ remain : nat) : nat := (if 2 <=? size then 0 else 2 * (2 - size)) + (if 0 <? end_ then 1 else 0) + 3 * remain + 1.

Lemma write_loop_ok : forall e fuel s v data off n_0, writing s v -> v_mode v = Writing -> off <= length data ->
  rounds (length (m_buffer s)) (m_end s) (length data - off) <= fuel ->
  exists success n s' k, write_loop e fuel s data off n_0 = Some (success, n, s') /\ writing s' (put v (firstn k (skipn off data))) /\
    (success = true -> k = length data - off /\ n = length data) /\ (success = false -> k < length data - off /\ n = n_0).
Proof.
  induction fuel as [|fuel IH]; intros s v data off n_0 H Md L F; [unfold rounds in F; lia|].
  destruct (wr_order _ _ H) as [O1 O2]. cbn [write_loop].
  destruct (newline_encode_exact data off (m_buffer s) (m_end s) L O2) as (n & out & E & E0).
  rewrite E. cbn [obind]. destruct (encoded_writing s v n _ _ data off H L E) as (H' & L' & M1 & M2 & Lb).
  set (buffer := firstn (m_end s) (m_buffer s) ++ out ++ skipn (m_end s + length out) (m_buffer s)) in *.
  set (end_ := m_end s + length out) in *.
  destruct (Nat.eqb_spec (off + n) (length data)) as [Q|Q].
  { exists true, (length data). eexists. exists n. split; [reflexivity|]. split; [exact H'|]. split; [intros _; lia|discriminate]. }
  destruct M1 as [M1|M1]; [contradiction|]. destruct M2 as [M2|M2]; [contradiction|].
  cbn [m_file m_buffer m_begin m_end m_curr m_retain_size m_retain_clear].
  destruct (Nat.ltb_spec 0 end_) as [P|P].
  - destruct (flush_ok e _ _ H') as (success & s' & Ef & Hf & Lbf & Sf). rewrite Ef. cbn [obind].
    destruct success.
    + destruct (Sf eq_refl) as (Z1 & Z2 & Z3).
      destruct (IH s' (put v (firstn n (skipn off data))) data (off + n) n_0 Hf eq_refl L') as (success & n2 & s2 & k & E2 & H2 & S2 & F2).
      { rewrite Lbf, Z2. cbn [m_buffer]. rewrite Lb. assert (Z0 : n = 0 -> length out = 0) by (intros ->; destruct E0 as (_ & -> & _); reflexivity).
        unfold end_ in P. revert F. unfold rounds. change (0 <? 0) with false.
        destruct (Nat.leb_spec 2 (length (m_buffer s))); destruct (Nat.ltb_spec 0 (m_end s)); lia. }
      exists success, n2, s2, (n + k). split; [exact E2|]. split.
      * rewrite put_put in H2. rewrite firstn_add, skipn_add. exact H2.
      * split; [intros W; destruct (S2 W); lia|intros W; destruct (F2 W); lia].
    + exists false, n_0, s', n. split; [reflexivity|]. split; [exact Hf|]. split; [discriminate|intros _; lia].
  - assert (Zo : out = []) by (apply length_zero_iff_nil; unfold end_ in P; lia).
    assert (Ze : m_end s = 0) by (unfold end_ in P; lia).
    assert (Zn : n = 0).
    { destruct E0 as (_ & Wn & _). rewrite Wn in Zo. destruct n as [|n]; [reflexivity|].
      assert (Ln : length (firstn (S n) (skipn off data)) = S n) by (apply firstn_length_le; rewrite skipn_length; lia).
      destruct (firstn (S n) (skipn off data)) as [|x r]; [discriminate|]. change (x :: r) with ([x] ++ r) in Zo.
      rewrite written_app in Zo. apply app_eq_nil in Zo. destruct Zo as [Zo _]. unfold written in Zo. cbn in Zo. destruct (x =? 10); discriminate. }
    subst n. rewrite Nat.add_0_r in *. apply (expanded_writing e) in H'. cbn [m_file m_buffer m_begin m_end m_curr m_retain_size m_retain_clear] in H'.
    assert (Pe : put v (firstn 0 (skipn off data)) = v).
    { unfold put, written. cbn. pose proof (wr_ahead _ _ H) as Wa. destruct v as [m c p a]. cbn in *. rewrite Md, Wa, Nat.add_0_r. reflexivity. }
    rewrite Pe in H'. apply (IH _ v data off n_0 H' Md L). cbn [m_buffer m_end].
    unfold expand_buffer. rewrite app_length, repeat_length, Lb. replace end_ with 0 by lia.
    revert F. unfold rounds. rewrite Ze. change (0 <? 0) with false.
    destruct (Nat.leb_spec 2 (length (m_buffer s))); destruct (Nat.leb_spec 2 (length (m_buffer s) + S (extra e (length (m_buffer s))))); lia.
Qed.

(* ---- histories ---- *)

Definition rel (s : impl) (v : view) : Prop :=
  match v_mode v with
  | Writing => writing s v
  | Reading => reading s v
  | Neutral => reading s v /\ (m_begin s = 0 /\ m_end s = 0 /\ m_curr s = 0 /\ m_retain_size s = 0 /\ m_retain_clear s = 0)
  end.

Lemma rel_reading : forall s v, v_mode v <> Writing -> rel s v -> reading s v.
Proof. intros s v M H. unfold rel in H. destruct (v_mode v); [apply H|assumption|contradiction]. Qed.

Lemma rel_writing : forall s v, v_mode v <> Reading -> rel s v -> writing s v.
Proof.
  intros s v M H. unfold rel in H. destruct (v_mode v); [|contradiction|assumption].
  destruct H as [H (Z1 & Z2 & Z3 & Z4 & Z5)]. constructor.
  - lia.
  - unfold held. rewrite Z1, Z2. cbn. apply H.
  - rewrite (rd_position _ _ H). lia.
  - auto.
  - rewrite <- (rd_retain _ _ H). assumption.
Qed.

Lemma rel_neutral : forall f buffer, rel (Impl f buffer 0 0 0 0 0) (View Neutral (content f) (position f) 0).
Proof.
  intros f buffer. split; [|auto]. constructor; cbn; auto.
  - lia.
  - destruct (reads_exists (skipn (position f) (content f))) as (cs & R). exists cs. cbn. repeat split; auto; lia.
Qed.

Lemma with_file_reading : forall s v c, reading s v ->
  reading (with_file s (File (content (m_file s)) (position (m_file s)) c)) v.
Proof. intros s v c [H1 H2 H3 H4 H5 H6]. constructor; assumption. Qed.
Lemma with_file_writing : forall s v c, writing s v ->
  writing (with_file s (File (content (m_file s)) (position (m_file s)) c)) v.
Proof. intros s v c [H1 H2 H3 H4 H5]. constructor; assumption. Qed.

Lemma with_file_rel : forall s v c, rel s v ->
  rel (with_file s (File (content (m_file s)) (position (m_file s)) c)) v.
Proof.
  intros s v c. unfold rel. destruct (v_mode v); [intros [H Z]; split; [|exact Z]| |];
    [apply with_file_reading; assumption|apply with_file_reading|apply with_file_writing].
Qed.

Lemma rel_content : forall s v, rel s v -> v_mode v <> Writing -> content (m_file s) = v_content v.
Proof. intros s v H M. apply rel_reading in H; [|assumption]. apply H. Qed.

Lemma exec_ok : forall e s v o, rel s v -> legal v o ->
  exists r s' v', exec e s o = Some (r, s') /\ step v o r v' /\ rel s' v'.
Proof.
  intros e s v o H Lg. destruct o as [size dyn| |n| | |pos|data n_0| |]; cbn [legal] in Lg; cbn [exec].
  - apply rel_reading in H; [|assumption]. unfold read_ahead.
    destruct (read_loop_ok e 5 s v false size dyn H) as (r & s' & v' & E & St & M & H'); [discriminate|lia|].
    rewrite E. cbn [obind]. exists (as_result r), s', v'. split; [destruct r; reflexivity|]. split; [assumption|].
    unfold rel. rewrite M. assumption.
  - pose proof (rel_reading _ _ Lg H) as Hr. destruct (advance_all_ok s v Hr) as (s' & v' & E & M & H'). rewrite E. cbn [obind].
    do 3 eexists. split; [reflexivity|]. split; [apply step_advance_all, M|].
    destruct (step_ahead _ _ _ M) as [_ Mo]. unfold rel in *. rewrite Mo. destruct (v_mode v); [|assumption|contradiction].
    split; [assumption|]. unfold advance_all in E. destruct (m_begin s <=? m_curr s); [|discriminate]. injection E as <-. cbn. intuition.
  - destruct Lg as [Lg Ln]. pose proof (rel_reading _ _ Lg H) as Hr. destruct (advance_ok s v n Hr Ln) as (s' & v' & E & M & H'). rewrite E. cbn [obind].
    do 3 eexists. split; [reflexivity|]. split; [apply step_advance, M|].
    destruct (step_ahead _ _ _ M) as [_ Mo]. unfold rel in *. rewrite Mo. destruct (v_mode v); [|assumption|contradiction].
    split; [assumption|]. destruct H as [_ (Z1 & Z2 & Z3 & Z4 & Z5)]. unfold advance in E. rewrite Z1, Z2, Z3, Z4, Z5 in E.
    destruct n as [|n]; [|discriminate]. injection E as <-. cbn. auto.
  - pose proof (rel_reading _ _ Lg H) as Hr. destruct (rd_order _ _ Hr) as [O1 O2]. unfold discard.
    rewrite (proj2 (Nat.leb_le _ _)) by lia. cbn [negb]. unfold try_seek.
    assert (Done : forall c, position (m_file s) - (m_end s - m_begin s) = v_pos v /\
      rel (Impl (File (content (m_file s)) (position (m_file s) - (m_end s - m_begin s)) c) (m_buffer s) 0 0 0 0 0) (View Neutral (v_content v) (v_pos v) 0)).
    { intros c. assert (P : position (m_file s) - (m_end s - m_begin s) = v_pos v) by (rewrite (rd_position _ _ Hr); lia). split; [exact P|].
      rewrite P, (rd_content _ _ Hr). apply (rel_neutral (File (v_content v) (v_pos v) c)). }
    destruct (Nat.ltb_spec 0 (m_end s - m_begin s)) as [P|P]; [destruct (fails e (clock (m_file s)))|].
    + do 3 eexists. split; [reflexivity|]. split; [apply step_discard_failed|]. apply with_file_rel. assumption.
    + do 3 eexists. split; [reflexivity|]. split; [apply step_discard|]. apply Done.
    + do 3 eexists. split; [reflexivity|]. split; [apply step_discard|].
      destruct (Done (clock (m_file s))) as [_ D]. replace (position (m_file s) - (m_end s - m_begin s)) with (position (m_file s)) in D by lia.
      destruct (m_file s). exact D.
  - pose proof (rel_reading _ _ Lg H) as Hr. destruct (rd_order _ _ Hr) as [O1 O2]. unfold tell_read.
    rewrite (proj2 (Nat.leb_le _ _)) by lia. cbn [negb]. unfold try_seek. destruct (fails e (clock (m_file s))).
    + do 3 eexists. split; [reflexivity|]. split; [apply step_tell_read_failed|]. apply with_file_rel. assumption.
    + do 3 eexists. split; [reflexivity|]. cbn [told]. rewrite (proj2 (Nat.leb_le _ _)) by (rewrite (rd_position _ _ Hr); lia).
      replace (position (m_file s) - (m_end s - m_begin s)) with (v_pos v) by (rewrite (rd_position _ _ Hr); lia).
      split; [apply step_tell_read|]. apply with_file_rel. assumption.
  - unfold seek, try_seek. pose proof (rel_reading _ _ Lg H) as Hr. destruct (fails e (clock (m_file s))).
    + do 3 eexists. split; [reflexivity|]. split; [apply step_seek_failed|]. apply with_file_rel. assumption.
    + do 3 eexists. split; [reflexivity|]. split; [apply step_seek|]. rewrite (rd_content _ _ Hr).
      apply (rel_neutral (File (v_content v) pos (S (clock (m_file s))))).
  - apply rel_writing in H; [|assumption]. unfold write.
    assert (H0 : writing s (View Writing (v_content v) (v_pos v) (v_ahead v))) by (apply writing_mode with (m := v_mode v); destruct v; assumption).
    destruct (write_loop_ok e (4 * length data + 8) s _ data 0 n_0 H0 eq_refl ltac:(lia)) as (success & n & s' & k & E & H' & S1 & F1).
    { unfold rounds. destruct (Nat.leb_spec 2 (length (m_buffer s))); destruct (Nat.ltb_spec 0 (m_end s)); lia. }
    rewrite E. cbn [obind]. cbn [skipn] in H'. change (put (View Writing (v_content v) (v_pos v) (v_ahead v))) with (put v) in H'. rewrite Nat.sub_0_r in *.
    destruct success; (do 3 eexists; split; [reflexivity|]).
    + destruct (S1 eq_refl) as [-> ->]. rewrite firstn_all in H'. split; [apply step_write|exact H'].
    + destruct (F1 eq_refl) as [Lk ->]. split; [apply step_write_failed; exact Lk|exact H'].
  - pose proof (rel_writing _ _ Lg H) as Hw. unfold flush. destruct (wr_zero _ _ Hw) as (Z1 & Z2 & Z3). rewrite Z1, Z2, Z3. cbn [Nat.eqb andb].
    destruct (flush_ok e s v Hw) as (success & s' & E & H' & _ & S1). rewrite E. cbn [obind].
    destruct success; (do 3 eexists; split; [reflexivity|]; cbn [done]).
    + split; [apply step_flush|]. destruct (S1 eq_refl) as (B1 & B2 & B3). destruct (wr_zero _ _ H') as (Z1' & Z2' & Z3').
      pose proof (wr_position _ _ H') as P. rewrite B1, B2, Nat.add_0_r in P.
      destruct s' as [f b x y z r c]. cbn in *. subst x y z r c. rewrite <- B3, <- P. apply rel_neutral.
    + split; [apply step_flush_failed|]. unfold rel in *. destruct (v_mode v) eqn:Mo; [|contradiction|assumption].
      (* nothing to flush *)
      exfalso. destruct H as [_ (Y1 & Y2 & _)]. unfold do_flush in E. rewrite Y1, Y2 in E. cbn in E. discriminate.
  - pose proof (rel_writing _ _ Lg H) as Hw. unfold tell_write, try_seek. destruct (fails e (clock (m_file s))).
    + do 3 eexists. split; [reflexivity|]. split; [apply step_tell_write_failed|]. apply with_file_rel. assumption.
    + do 3 eexists. split; [reflexivity|]. cbn [told]. rewrite (wr_position _ _ Hw).
      split; [apply step_tell_write|]. apply with_file_rel. assumption.
Qed.

Lemma legal_dec : forall v o, legal v o \/ ~ legal v o.
Proof.
  intros v o. assert (W : v_mode v <> Writing \/ ~ v_mode v <> Writing) by (destruct (v_mode v); [left|left|right]; [discriminate|discriminate|auto]).
  assert (R : v_mode v <> Reading \/ ~ v_mode v <> Reading) by (destruct (v_mode v); [left|right|left]; [discriminate|auto|discriminate]).
  destruct o; cbn [legal]; try assumption. destruct W as [W|W]; [|right; intros [Q _]; auto].
  destruct (le_dec n (v_ahead v)) as [L|L]; [left; auto|right; intros [_ Q]; auto].
Qed.

Lemma exec_all_ok : forall e os s v, rel s v -> conforms v os (exec_all e s os).
Proof.
  intros e os. induction os as [|o os IH]; intros s v H; [constructor|].
  destruct (legal_dec v o) as [Lg|Lg]; [|constructor; assumption].
  destruct (exec_ok e s v o H Lg) as (r & s' & v' & E & St & H'). cbn [exec_all]. rewrite E.
  apply conforms_step with (v' := v'); auto. intros M. apply rel_content; assumption.
Qed.

(* ---- a file that does not fail ---- *)

Definition failed (r : result) : bool := match r with ResFailed | ResWriteFailed _ => true | _ => false end.

Lemma read_loop_reliable : forall e fuel s eof size dyn r s', (forall n, fails e n = false) ->
  read_loop e fuel s eof size dyn = Some (r, s') -> r <> ReadFailed.
Proof.
  induction fuel as [|fuel IH]; intros s eof size dyn r s' N E; [discriminate E|]. cbn [read_loop] in E.
  destruct (negb _); [discriminate E|]. destruct (decode _ _ _ _ _ _ _) as [[[[curr out] n] clear]|]; [|discriminate E]. cbn [obind m_file m_buffer m_begin m_end m_curr m_retain_size m_retain_clear] in E.
  destruct ((0 <? n) || (size =? 0)); [injection E as <- _; discriminate|].
  match type of E with (if ?x then _ else _) = _ => destruct x end; [discriminate E|].
  match type of E with (if ?x then _ else _) = _ => destruct x end; [discriminate E|].
  unfold try_read_some in E. rewrite N in E. cbn [m_file m_buffer m_begin m_end m_curr m_retain_size m_retain_clear content position clock] in E.
  match type of E with (if 0 <? ?x then _ else _) = _ => destruct (0 <? x) end; [eapply IH; [exact N|exact E]|].
  match type of E with (if ?x then _ else _) = _ => destruct x end; [injection E as <- _; discriminate|]. eapply IH; [exact N|exact E].
Qed.

Lemma flush_reliable : forall e s success s', (forall n, fails e n = false) -> do_flush e s = Some (success, s') -> success = true.
Proof.
  intros e s success s' N E. unfold do_flush in E. destruct (negb _); [discriminate|]. unfold try_write in E. rewrite N in E.
  destruct (skipn _ _); injection E as <- _; reflexivity.
Qed.

Lemma write_loop_reliable : forall e fuel s data off n_0 success n s', (forall n, fails e n = false) ->
  write_loop e fuel s data off n_0 = Some (success, n, s') -> success = true.
Proof.
  induction fuel as [|fuel IH]; intros s data off n_0 success n s' N E; [discriminate|]. cbn [write_loop] in E.
  destruct (encode _ _ _ _) as [[[o b] en]|]; [|discriminate]. cbn [obind] in E.
  destruct (_ =? _); [injection E as <- _ _; reflexivity|]. destruct (0 <? _).
  - destruct (do_flush _ _) as [[ok s2]|] eqn:F; [|discriminate]. cbn [obind] in E. rewrite (flush_reliable _ _ _ _ N F) in E.
    eapply IH; [exact N|exact E].
  - eapply IH; [exact N|exact E].
Qed.

Lemma read_ahead_reliable : forall e s size dyn r s', (forall n, fails e n = false) ->
  read_ahead e s size dyn = Some (r, s') -> r <> ReadFailed.
Proof. intros e s size dyn r s' N. unfold read_ahead. apply read_loop_reliable. exact N. Qed.
Lemma write_reliable : forall e s data n_0 success n s', (forall n, fails e n = false) ->
  write e s data n_0 = Some (success, n, s') -> success = true.
Proof. intros e s data n_0 success n s' N. unfold write. apply write_loop_reliable. exact N. Qed.

Lemma exec_read_eq : forall e s size dyn, exec e s (OpReadAhead size dyn) =
  match read_ahead e s size dyn with Some (r, s') => Some (as_result r, s') | None => None end.
Proof. intros e s size dyn. cbn [exec]. destruct (read_ahead e s size dyn) as [[r s']|]; [|reflexivity]. destruct r; reflexivity. Qed.
Lemma exec_write_eq : forall e s data n_0, exec e s (OpWrite data n_0) =
  match write e s data n_0 with Some (success, n, s') => Some (if success : bool then ResWrote n else ResWriteFailed n, s') | None => None end.
Proof. intros e s data n_0. cbn [exec]. destruct (write e s data n_0) as [[[r n] s']|]; reflexivity. Qed.

Lemma exec_reliable_0 : forall e s size dyn r s', (forall n, fails e n = false) -> exec e s (OpReadAhead size dyn) = Some (r, s') -> failed r = false.
Proof.
  intros e s size dyn r s' N E. rewrite exec_read_eq in E.
  destruct (read_ahead e s size dyn) as [[q t]|] eqn:Q; [|discriminate E].
  apply read_ahead_reliable in Q; [|assumption]. destruct q; [injection E as <- _; reflexivity|exfalso; apply Q; reflexivity].
Qed.
Lemma exec_reliable_1 : forall e s  r s', (forall n, fails e n = false) -> exec e s (OpAdvanceAll) = Some (r, s') -> failed r = false.
Proof.
  intros e s  r s' N E. cbn [exec] in E.
  destruct (advance_all s); [injection E as <- _; reflexivity|discriminate].
Qed.
Lemma exec_reliable_2 : forall e s n r s', (forall n, fails e n = false) -> exec e s (OpAdvance n) = Some (r, s') -> failed r = false.
Proof.
  intros e s n r s' N E. cbn [exec] in E.
  destruct (advance s n); [injection E as <- _; reflexivity|discriminate].
Qed.
Lemma exec_reliable_3 : forall e s  r s', (forall n, fails e n = false) -> exec e s (OpDiscard) = Some (r, s') -> failed r = false.
Proof.
  intros e s  r s' N E. cbn [exec] in E.
  unfold discard, try_seek in E. destruct (negb _); [discriminate|]. rewrite N in E. destruct (0 <? _); injection E as <- _; reflexivity.
Qed.
Lemma exec_reliable_4 : forall e s  r s', (forall n, fails e n = false) -> exec e s (OpTellRead) = Some (r, s') -> failed r = false.
Proof.
  intros e s  r s' N E. cbn [exec] in E.
  unfold tell_read, try_seek in E. destruct (negb _); [discriminate|]. rewrite N in E. injection E as <- _; reflexivity.
Qed.
Lemma exec_reliable_5 : forall e s pos r s', (forall n, fails e n = false) -> exec e s (OpSeek pos) = Some (r, s') -> failed r = false.
Proof.
  intros e s pos r s' N E. cbn [exec] in E.
  unfold seek, try_seek in E. rewrite N in E. injection E as <- _; reflexivity.
Qed.
Lemma exec_reliable_6 : forall e s data n_0 r s', (forall n, fails e n = false) -> exec e s (OpWrite data n_0) = Some (r, s') -> failed r = false.
Proof.
  intros e s data n_0 r s' N E. rewrite exec_write_eq in E.
  destruct (write e s data n_0) as [[[ok n] t]|] eqn:Q; [|discriminate].
    apply write_reliable in Q; [|assumption]. subst ok. injection E as <- _; reflexivity.
Qed.
Lemma exec_reliable_7 : forall e s  r s', (forall n, fails e n = false) -> exec e s (OpFlush) = Some (r, s') -> failed r = false.
Proof.
  intros e s  r s' N E. cbn [exec] in E.
  unfold flush in E. destruct (_ && _); [|discriminate]. destruct (do_flush e s) as [[ok t]|] eqn:Q; [|discriminate].
    apply flush_reliable in Q; [|assumption]. subst ok. injection E as <- _; reflexivity.
Qed.
Lemma exec_reliable_8 : forall e s  r s', (forall n, fails e n = false) -> exec e s (OpTellWrite) = Some (r, s') -> failed r = false.
Proof.
  intros e s  r s' N E. cbn [exec] in E.
  unfold tell_write, try_seek in E. rewrite N in E. injection E as <- _; reflexivity.
Qed.

Lemma exec_reliable : forall e s o r s', (forall n, fails e n = false) -> exec e s o = Some (r, s') -> failed r = false.
Proof.
  intros e s o r s' N E. destruct o;
    [eapply exec_reliable_0|eapply exec_reliable_1|eapply exec_reliable_2|eapply exec_reliable_3|eapply exec_reliable_4|
     eapply exec_reliable_5|eapply exec_reliable_6|eapply exec_reliable_7|eapply exec_reliable_8]; eassumption.
Qed.

Lemma exec_all_reliable : forall e os s r c, (forall n, fails e n = false) -> In (Some (r, c)) (exec_all e s os) -> failed r = false.
Proof.
  intros e os. induction os as [|o os IH]; intros s r c N I; [destruct I|]. cbn [exec_all] in I.
  destruct (exec e s o) as [[q t]|] eqn:E; [|destruct I as [I|[]]; discriminate].
  destruct I as [I|I]; [|eapply IH; eassumption]. injection I as I _. subst q. eapply exec_reliable; eassumption.
Qed.
