(* Lemmas about rewindable sources and the detection of file formats *)
From Coq Require Import ZArith Bool List Lia Sorted Permutation.
From Verif Require Import FlatMapModel FlatMapSpec FlatMapProofs FlatMapProps FmtRegModel FmtRegSpec FmtRegProofs FmtRegProps LoadModel LoadSpec ArrLib.
Import ListNotations.

Lemma skipn_skipn : forall {A} x y (l : list A), skipn x (skipn y l) = skipn (x + y) l.
Proof.
  intros A x y. rewrite Nat.add_comm. induction y as [|y IH]; intros l; [reflexivity|].
  destruct l; [cbn; apply skipn_nil|]. cbn. apply IH.
Qed.

Lemma sub_read_right : forall s size sub res, sub_read s size = (sub, res) ->
  match res with
  | Some bytes => sub_rest s = bytes ++ sub_rest sub /\ length bytes <= size /\
      (0 < size -> bytes = [] -> sub_rest s = [])
  | None => sub_rest sub = sub_rest s /\ In None (sub_steps s)
  end /\ incl (sub_steps sub) (sub_steps s).
Proof.
  assert (G : forall (l : list Z) n m, n <= m -> (0 < m -> 0 < n) ->
    l = firstn n l ++ skipn n l /\ length (firstn n l) <= m /\ (0 < m -> firstn n l = [] -> l = [])).
  { intros l n m H1 H2. split; [symmetry; apply firstn_skipn|]. split; [rewrite firstn_length; lia|].
    intros H3 H4. specialize (H2 H3). destruct n; [lia|]. destruct l; [reflexivity|discriminate]. }
  intros s size sub res H. unfold sub_read in H.
  destruct (sub_steps s) as [|[extra|] steps] eqn:E; injection H as <- <-; cbn [sub_rest sub_steps].
  - split; [apply G; lia|apply incl_refl].
  - split; [apply G; lia|apply incl_tl, incl_refl].
  - split; [split; [reflexivity|left; reflexivity]|apply incl_tl, incl_refl].
Qed.

Section S.
Context (grow : nat -> nat) (HG : forall n, n < grow n) (data : list Z).

(* the source has delivered pos bytes *)
Record at_pos (r : rsource) (pos : nat) : Prop := {
  ap_offset : rs_offset r <= length (rs_buffer r);
  ap_rest : skipn pos data = skipn (rs_offset r) (rs_buffer r) ++ sub_rest (rs_sub r);
  ap_pos : pos <= length data;
  ap_unreleased : rs_released r = false -> data = rs_buffer r ++ sub_rest (rs_sub r) /\ pos = rs_offset r;
}.

Lemma skipn_more : forall {A} (l a b : list A) n, skipn n l = a ++ b -> skipn (n + length a) l = b.
Proof.
  intros A l a b n H. rewrite Nat.add_comm, <- skipn_skipn, H, skipn_app, skipn_all, Nat.sub_diag. reflexivity.
Qed.

Lemma skipn_bound : forall {A} (l a b : list A) n, n <= length l -> skipn n l = a ++ b -> n + length a <= length l.
Proof.
  intros A l a b n L H. apply (f_equal (@length A)) in H. rewrite skipn_length, app_length in H. lia.
Qed.

Lemma from_buffer_right : forall r pos size r' res, at_pos r pos -> read_from_buffer r size = (r', res) ->
  (0 < size -> rs_offset r < length (rs_buffer r)) ->
  delivers data pos size res /\ at_pos r' (advance pos res) /\ rs_released r' = rs_released r /\
  rs_sub r' = rs_sub r /\ res <> None.
Proof.
  intros r pos size r' res [A1 A2 A3 A4] H NE. unfold read_from_buffer in H. injection H as <- <-.
  set (n := Nat.min (length (rs_buffer r) - rs_offset r) size).
  set (bytes := firstn n (skipn (rs_offset r) (rs_buffer r))).
  assert (LB : length bytes = n) by (unfold bytes; rewrite firstn_length, skipn_length; lia).
  assert (SK : skipn (rs_offset r) (rs_buffer r) = bytes ++ skipn (rs_offset r + n) (rs_buffer r)).
  { unfold bytes. rewrite (Nat.add_comm (rs_offset r) n), <- skipn_skipn. symmetry. apply firstn_skipn. }
  rewrite SK, <- app_assoc in A2.
  split; [|split; [|split; [reflexivity|split; [reflexivity|discriminate]]]].
  - cbn [delivers]. split; [lia|]. split; [eexists; exact A2|].
    intros S0 E. specialize (NE S0). assert (length bytes = 0) by (rewrite E; reflexivity). lia.
  - cbn [advance]. constructor; cbn [rs_offset rs_buffer rs_sub rs_released].
    + lia.
    + exact (skipn_more _ _ _ _ A2).
    + exact (skipn_bound _ _ _ _ A3 A2).
    + intros R. destruct (A4 R) as [D P]. split; [exact D|lia].
Qed.

Lemma read_right : forall r pos size r' res, at_pos r pos -> do_try_read_some grow r size = (r', res) ->
  delivers data pos size res /\ at_pos r' (advance pos res) /\ rs_released r' = rs_released r /\
  incl (sub_steps (rs_sub r')) (sub_steps (rs_sub r)) /\ (res = None -> In None (sub_steps (rs_sub r))).
Proof.
  intros r pos size r' res A H. unfold do_try_read_some in H.
  destruct (Nat.eqb_spec (rs_offset r) (length (rs_buffer r))) as [EO|NO].
  - destruct A as [A1 A2 A3 A4]. rewrite EO, skipn_all in A2. cbn [app] in A2.
    destruct (rs_released r) eqn:ER.
    + destruct (sub_read (rs_sub r) size) as [sub res'] eqn:ES. injection H as <- <-.
      destruct (sub_read_right _ _ _ _ ES) as [B I]. cbn [rs_released rs_sub]. destruct res' as [bytes|].
      * destruct B as (B1 & B2 & B3). rewrite B1 in A2.
        split; [|split; [|split; [reflexivity|split; [exact I|discriminate]]]].
        -- cbn [delivers]. split; [exact B2|]. split; [eexists; exact A2|].
           intros S0 E. specialize (B3 S0 E). rewrite B3 in B1. symmetry in B1. apply app_eq_nil in B1.
           destruct B1 as [_ B1]. rewrite E, B1 in A2.
           apply (f_equal (@length Z)) in A2. rewrite skipn_length in A2. cbn in A2. lia.
        -- cbn [advance]. constructor; cbn [rs_offset rs_buffer rs_sub rs_released].
           ++ lia.
           ++ rewrite EO, skipn_all. exact (skipn_more _ _ _ _ A2).
           ++ exact (skipn_bound _ _ _ _ A3 A2).
           ++ discriminate.
      * destruct B as [B1 B2]. split; [exact Logic.I|]. split; [|split; [reflexivity|split; [exact I|intros _; exact B2]]].
        cbn [advance]. constructor; cbn [rs_offset rs_buffer rs_sub rs_released]; [lia| |exact A3|discriminate].
        rewrite EO, skipn_all, B1. exact A2.
    + destruct (A4 eq_refl) as [D P].
      set (cap := if length (rs_buffer r) <? rs_capacity r then rs_capacity r else grow (length (rs_buffer r))) in *.
      assert (HC : 0 < cap - length (rs_buffer r)).
      { unfold cap. destruct (Nat.ltb_spec (length (rs_buffer r)) (rs_capacity r)); [lia|].
        pose proof (HG (length (rs_buffer r))). lia. }
      destruct (sub_read (rs_sub r) (cap - length (rs_buffer r))) as [sub res'] eqn:ES.
      destruct (sub_read_right _ _ _ _ ES) as [B I]. destruct res' as [bytes|].
      * destruct B as (B1 & B2 & B3). destruct (Nat.ltb_spec 0 (length bytes)) as [LB|LB].
        -- set (r1 := RSource sub (rs_buffer r ++ bytes) cap (rs_offset r) false) in *.
           assert (A' : at_pos r1 pos).
           { constructor; cbn [r1 rs_offset rs_buffer rs_sub rs_released].
             - rewrite app_length. lia.
             - rewrite skipn_app, EO, skipn_all, Nat.sub_diag. cbn [skipn app]. rewrite A2, B1. reflexivity.
             - exact A3.
             - intros _. split; [rewrite D at 1; rewrite B1, app_assoc; reflexivity|exact P]. }
           destruct (from_buffer_right r1 pos size r' res A' H) as (C1 & C2 & C3 & C4 & C5).
           { intros _. cbn [r1 rs_offset rs_buffer]. rewrite app_length. lia. }
           split; [exact C1|]. split; [exact C2|]. split; [exact C3|]. split; [rewrite C4; exact I|contradiction].
        -- injection H as <- <-. assert (E : bytes = []) by (destruct bytes; [reflexivity|cbn in LB; lia]). subst bytes.
           specialize (B3 HC eq_refl). cbn [app] in B1. cbn [rs_released rs_sub].
           split; [|split; [|split; [reflexivity|split; [exact I|discriminate]]]].
           ++ cbn [delivers length]. split; [lia|]. split; [eexists; reflexivity|]. intros _ _.
              rewrite B3 in A2. apply (f_equal (@length Z)) in A2. rewrite skipn_length in A2. cbn in A2. lia.
           ++ cbn [advance length]. rewrite Nat.add_0_r.
              constructor; cbn [rs_offset rs_buffer rs_sub rs_released]; [lia| |exact A3|].
              ** rewrite EO, skipn_all. cbn [app]. rewrite A2, B1. reflexivity.
              ** intros _. split; [rewrite D at 1; rewrite B1; reflexivity|exact P].
      * injection H as <- <-. destruct B as [B1 B2]. cbn [rs_released rs_sub].
        split; [exact Logic.I|]. split; [|split; [reflexivity|split; [exact I|intros _; exact B2]]].
        cbn [advance]. constructor; cbn [rs_offset rs_buffer rs_sub rs_released]; [lia| |exact A3|].
        -- rewrite EO, skipn_all, B1. exact A2.
        -- intros _. rewrite B1. split; assumption.
  - destruct (from_buffer_right r pos size r' res A H) as (C1 & C2 & C3 & C4 & C5).
    { intros _. pose proof (ap_offset _ _ A). lia. }
    split; [exact C1|]. split; [exact C2|]. split; [exact C3|]. split; [rewrite C4; apply incl_refl|contradiction].
Qed.

Lemma rewind_right : forall r pos, at_pos r pos -> rs_released r = false ->
  exists r', rewind r = Some r' /\ at_pos r' 0 /\ rs_released r' = false /\ rs_sub r' = rs_sub r.
Proof.
  intros r pos [A1 A2 A3 A4] R. unfold rewind. rewrite R. cbn [negb]. eexists. split; [reflexivity|].
  split; [|split; reflexivity]. destruct (A4 R) as [D _].
  constructor; cbn [rs_offset rs_buffer rs_sub rs_released skipn]; [lia|exact D|lia|auto].
Qed.

Lemma release_right : forall r pos, at_pos r pos -> at_pos (release r) pos.
Proof.
  intros r pos [A1 A2 A3 A4]. constructor; cbn [release rs_offset rs_buffer rs_sub rs_released]; auto. discriminate.
Qed.

Lemma initial_right : forall sub capacity, sub_rest sub = data -> at_pos (RSource sub [] capacity 0 false) 0.
Proof. intros sub capacity E. constructor; cbn; auto; lia. Qed.

Lemma reader_right : forall p r pos r' v, at_pos r pos -> run_reader grow p r = (r', v) ->
  may_return data pos p v /\ (exists pos', at_pos r' pos') /\ rs_released r' = rs_released r.
Proof.
  induction p as [v0| |size cont IH]; intros r pos r' v A H; cbn [run_reader] in H.
  - injection H as <- <-. split; [constructor|]. split; [exists pos; exact A|reflexivity].
  - injection H as <- <-. split; [constructor|]. split; [exists pos; exact A|reflexivity].
  - destruct (do_try_read_some grow r size) as [r1 res] eqn:E.
    destruct (read_right _ _ _ _ _ A E) as (D & A1 & R1 & _ & _).
    destruct (IH res r1 _ r' v A1 H) as (M & P & R). split; [econstructor; eassumption|]. split; [exact P|congruence].
Qed.

(* the set of checked formats *)
Lemma nat_swo : strict_weak_order Nat.ltb.
Proof.
  constructor; intros.
  - apply Nat.ltb_irrefl.
  - apply Nat.ltb_lt in H, H0. apply Nat.ltb_lt. lia.
  - apply Nat.ltb_lt in H. destruct (Nat.ltb_spec x y); [left; reflexivity|]. right. apply Nat.ltb_lt. lia.
Qed.

Lemma nat_eqv : forall a b, eqv Nat.ltb a b = true <-> a = b.
Proof.
  intros a b. rewrite (eqv_true Nat.ltb). rewrite !Nat.ltb_ge. lia.
Qed.

Definition set_ok (checked : list nat) := ssorted Nat.ltb (fun x => x) checked.

Lemma contains_right : forall checked k, set_ok checked ->
  exists b, fm_contains Nat.ltb (fun x => x) checked k = Some b /\ (b = true <-> In k checked).
Proof.
  intros checked k S.
  destruct (three_split Nat.ltb (fun x => x) nat_swo checked k (ssorted_wsorted Nat.ltb _ nat_swo _ S))
    as (A & B & C & -> & HA & HB & HC).
  rewrite (fm_contains_split Nat.ltb (fun x => x) nat_swo k A B C) by assumption. eexists. split; [reflexivity|].
  rewrite Forall_forall in HA, HB, HC. split.
  - destruct B as [|b B]; [discriminate|]. intros _. specialize (HB b (or_introl eq_refl)). apply nat_eqv in HB. subst b.
    apply in_or_app. right. left. reflexivity.
  - intros I. apply in_app_or in I. destruct I as [I|I].
    + apply HA in I. unfold below in I. rewrite Nat.ltb_irrefl in I. discriminate.
    + apply in_app_or in I. destruct I as [I|I]; [destruct B; [contradiction|reflexivity]|].
      apply HC in I. unfold above in I. rewrite Nat.ltb_irrefl in I. discriminate.
Qed.

Lemma insert_right : forall fs checked, set_ok checked ->
  exists checked', insert_range checked fs = Some checked' /\ set_ok checked' /\
    forall k, In k checked' <-> In k checked \/ In k (map f_object fs).
Proof.
  induction fs as [|f fs IH]; intros checked S; cbn [insert_range map].
  - exists checked. split; [reflexivity|]. split; [exact S|]. intros k. cbn. tauto.
  - destruct (three_split Nat.ltb (fun x => x) nat_swo checked (f_object f) (ssorted_wsorted Nat.ltb _ nat_swo _ S))
      as (A & B & C & E & HA & HB & HC). rewrite E in *.
    rewrite (fm_insert_split Nat.ltb (fun x => x) nat_swo A B C (f_object f)) by assumption.
    destruct B as [|b B]; cbn [obind fst snd].
    + destruct (IH (A ++ f_object f :: C)) as (c & E1 & S1 & I1); [apply ssorted_insert; assumption|].
      exists c. split; [exact E1|]. split; [exact S1|]. intros k. rewrite I1. rewrite !in_app_iff. cbn. tauto.
    + destruct (IH (A ++ (b :: B) ++ C) S) as (c & E1 & S1 & I1).
      exists c. split; [exact E1|]. split; [exact S1|]. intros k. rewrite I1.
      inversion HB as [|? ? HB1 _]; subst. apply nat_eqv in HB1. rewrite !in_app_iff. cbn. rewrite HB1. tauto.
Qed.

Context (recognize : format -> reader).

(* the format has been seen not to recognize the data *)
Definition rejects (f : format) : Prop := may_return data 0 (recognize f) (Some false).

Lemma check_right : forall fs checked r, set_ok checked -> at_pos r 0 -> rs_released r = false ->
  (forall f, In f fs -> In (f_object f) checked -> rejects f) ->
  exists d, check_formats grow recognize fs checked r = Some d /\
  match d with
  | Thrown => exists a f b, fs = a ++ f :: b /\ Forall rejects a /\ may_return data 0 (recognize f) None
  | NotFound r' => Forall rejects fs /\ at_pos r' 0 /\ rs_released r' = false
  | Found f r' => exists a b, fs = a ++ f :: b /\ Forall rejects a /\ may_return data 0 (recognize f) (Some true) /\
      at_pos r' 0 /\ rs_released r' = false
  end.
Proof.
  induction fs as [|f fs IH]; intros checked r S A R K; cbn [check_formats].
  - exists (NotFound r). split; [reflexivity|]. auto.
  - assert (GO : forall r1, at_pos r1 0 -> rs_released r1 = false -> rejects f ->
      exists d, check_formats grow recognize fs checked r1 = Some d /\
      match d with
      | Thrown => exists a f0 b, f :: fs = a ++ f0 :: b /\ Forall rejects a /\ may_return data 0 (recognize f0) None
      | NotFound r' => Forall rejects (f :: fs) /\ at_pos r' 0 /\ rs_released r' = false
      | Found f0 r' => exists a b, f :: fs = a ++ f0 :: b /\ Forall rejects a /\
          may_return data 0 (recognize f0) (Some true) /\ at_pos r' 0 /\ rs_released r' = false
      end).
    { intros r1 A1 R1 RJ. destruct (IH checked r1 S A1 R1) as (d & E & H).
      { intros g G1 G2. apply K; [right; exact G1|exact G2]. }
      exists d. split; [exact E|]. destruct d as [g r'|r'|].
      - destruct H as (a & b & -> & F & H). exists (f :: a), b. split; [reflexivity|]. split; [constructor; assumption|exact H].
      - destruct H as (F & H). split; [constructor; assumption|exact H].
      - destruct H as (a & g & b & -> & F & H). exists (f :: a), g, b. split; [reflexivity|].
        split; [constructor; assumption|exact H]. }
    destruct (contains_right checked (f_object f) S) as (seen & -> & HS). cbn [obind].
    destruct seen; cbn [negb].
    + apply GO; [exact A|exact R|]. apply K; [left; reflexivity|]. apply HS. reflexivity.
    + destruct (run_reader grow (recognize f) r) as [r1 v] eqn:E.
      destruct (reader_right _ _ _ _ _ A E) as (M & (pos' & A1) & R1). rewrite R in R1.
      destruct v as [v|].
      * destruct (rewind_right r1 pos' A1 R1) as (r2 & -> & A2 & R2 & _). cbn [obind].
        destruct v; [|apply GO; assumption].
        eexists. split; [reflexivity|]. exists [], fs. split; [reflexivity|]. split; [constructor|]. auto.
      * eexists. split; [reflexivity|]. exists [], f, fs. split; [reflexivity|]. split; [constructor|exact M].
Qed.
End S.

Lemma get_formats_right : forall r fs, registered r fs -> (Z.of_nat (length fs) < 2 ^ 31)%Z ->
  forall b a, fs = a ++ b -> get_formats r (Z.of_nat (length a)) (length b) = Some b.
Proof.
  intros r fs R L. induction b as [|f b IH]; intros a E; [reflexivity|]. cbn [length get_formats].
  rewrite (get_right r fs (Z.of_nat (length a)) R L). cbn [obind].
  destruct (Z.ltb_spec (Z.of_nat (length a)) 0); [lia|]. rewrite Nat2Z.id, E, nth_error_app2, Nat.sub_diag by lia.
  cbn [nth_error obind].
  specialize (IH (a ++ [f])). rewrite app_length, Nat2Z.inj_add in IH. cbn [length] in IH. change (Z.of_nat 1) with 1%Z in IH.
  rewrite IH; [reflexivity|].
  rewrite E, <- app_assoc. reflexivity.
Qed.
