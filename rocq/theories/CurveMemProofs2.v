(* Sequences of calls; how far back the curve memory reaches; the trackball. *)

From Coq Require Import ZArith Bool List Lia.
From Verif Require Import CInt IntModel IntProofs CurveMemModel CurveMemSpec CurveMemProofs ArrLib.
Import ListNotations.
Open Scope Z_scope.

(* a client's calls, one after the other *)
Definition fsm_call {T} (m : option (fsm T)) (op : mem_op T) : option (fsm T) :=
  let? m := m in
  match op with Push v => fsm_push_back m v | Clear => Some (fsm_clear m) end.
Definition fsm_calls {T} (m : option (fsm T)) (ops : list (mem_op T)) : option (fsm T) :=
  fold_left fsm_call ops m.

Definition fcm_call {V} (m : option (fcm V)) (op : mem_op (V * Z)) : option (fcm V) :=
  let? m := m in
  match op with Push (v, t) => fcm_add_value m v t | Clear => Some (fcm_clear m) end.
Definition fcm_calls {V} (m : option (fcm V)) (ops : list (mem_op (V * Z))) : option (fcm V) :=
  fold_left fcm_call ops m.

Definition tball_call {V} (d : V) lerp near (b : option (tball V)) (e : tb_event V) : option (tball V) :=
  let? b := b in
  match e with
  | Acquire => Some (tball_acquire b)
  | Track pos time => tball_track b pos time
  | Leave => Some (tball_leave b)
  | Release => let? r := tball_release d lerp near b in Some (fst r)
  end.
Definition tball_calls {V} (d : V) lerp near (b : option (tball V)) (es : list (tb_event V)) :=
  fold_left (tball_call d lerp near) es b.

(* --- histories ------------------------------------------------------------------ *)

Lemma since_clear_app {T} (ops : list (mem_op T)) op :
  since_clear (ops ++ [op]) = match op with Push v => since_clear ops ++ [v] | Clear => [] end.
Proof. unfold since_clear. rewrite fold_left_app. reflexivity. Qed.

Lemma fsm_calls_rep {T} (m : fsm T) cap ops : fsm_rep cap m [] ->
  exists m', fsm_calls (Some m) ops = Some m' /\ fsm_rep cap m' (since_clear ops).
Proof.
  intros H0. induction ops as [|op ops IH] using rev_ind.
  - exists m. split; [reflexivity|assumption].
  - destruct IH as (m1 & E1 & H1). unfold fsm_calls in *. rewrite fold_left_app, E1.
    cbn [fold_left fsm_call obind]. rewrite since_clear_app. destruct op as [v|].
    + apply fsm_push_back_rep. assumption.
    + eexists. split; [reflexivity|]. eapply fsm_clear_rep. eassumption.
Qed.

Lemma nondecreasing_app_l {V} (h : list (V * Z)) s : nondecreasing (h ++ [s]) -> nondecreasing h.
Proof.
  intros H i j a b Hij Ha Hb. apply (H i j); [assumption| |]; rewrite nth_error_app1; try assumption.
  - apply nth_error_Some. congruence.
  - apply nth_error_Some. congruence.
Qed.

Lemma last_time_nth {V} (h : list (V * Z)) p : last_time None h = Some p ->
  exists s, nth_error h (length h - 1) = Some s /\ snd s = p.
Proof.
  destruct h as [|s h] using rev_ind; [discriminate|]. rewrite last_time_app. intros E.
  exists s. rewrite app_length. cbn [length]. rewrite nth_error_app2 by lia.
  replace (length h + 1 - 1 - length h)%nat with 0%nat by lia. split; [reflexivity|congruence].
Qed.

Lemma nondecreasing_snoc_ok {V} (h : list (V * Z)) v t : nondecreasing (h ++ [(v, t)]) -> snoc_ok h t.
Proof.
  intros H. unfold snoc_ok. destruct (last_time None h) as [p|] eqn:E; [|exact I].
  destruct (last_time_nth h p E) as (s & Es & <-).
  assert (length h <> 0)%nat by (destruct h; [discriminate|cbn; lia]).
  apply (H (length h - 1)%nat (length h) s (v, t)); [lia| |].
  - rewrite nth_error_app1 by lia. assumption.
  - rewrite nth_error_app2 by lia. rewrite Nat.sub_diag. reflexivity.
Qed.

Lemma fcm_calls_rep {V} (m : fcm V) cap per ops : (0 < cap)%nat -> 0 < per ->
  in_range t_long per -> fcm_rep cap per m [] -> in_order ops ->
  (forall v t, In (Push (v, t)) ops -> in_range t_long t) ->
  exists m', fcm_calls (Some m) ops = Some m' /\ fcm_rep cap per m' (since_clear ops).
Proof.
  intros Hc Hp Rp H0. induction ops as [|op ops IH] using rev_ind; intros Ho Hr.
  - exists m. split; [reflexivity|assumption].
  - destruct IH as (m1 & E1 & H1).
    { intros pre post ->. apply (Ho pre (post ++ [op])). rewrite app_assoc. reflexivity. }
    { intros v t Hi. apply (Hr v t). apply in_or_app. left. assumption. }
    unfold fcm_calls in *. rewrite fold_left_app, E1. cbn [fold_left fcm_call obind].
    rewrite since_clear_app. destruct op as [[v t]|].
    + apply fcm_add_value_rep; try assumption.
      * apply (Hr v t). apply in_or_app. right. left. reflexivity.
      * apply (nondecreasing_snoc_ok _ v).
        specialize (Ho (ops ++ [Push (v, t)]) [] (eq_sym (app_nil_r _))).
        rewrite since_clear_app in Ho. assumption.
    + eexists. split; [reflexivity|]. eapply fcm_clear_rep. eassumption.
Qed.

(* --- order of the samples ------------------------------------------------------- *)

Definition slots_up {V} (per : Z) (l : list (V * Z)) : Prop :=
  forall i j a b, (i < j)%nat -> nth_error l i = Some a -> nth_error l j = Some b ->
    slot per (snd a) < slot per (snd b).

Lemma nth_error_snoc {A} (l : list A) x i y : nth_error (l ++ [x]) i = Some y ->
  ((i < length l)%nat /\ nth_error l i = Some y) \/ (i = length l /\ y = x).
Proof.
  intros H. destruct (Nat.lt_ge_cases i (length l)) as [E|E].
  - left. rewrite nth_error_app1 in H by assumption. auto.
  - right. rewrite nth_error_app2 in H by assumption.
    destruct (i - length l)%nat as [|k] eqn:Ek.
    + split; [lia|]. cbn in H. congruence.
    + cbn in H. destruct k; discriminate.
Qed.

Lemma samples_facts {V} per (h : list (V * Z)) : 0 < per -> nondecreasing h ->
  slots_up per (samples_of per h) /\
  (forall s, In s (samples_of per h) -> In s h) /\
  forall p, last_time None h = Some p ->
    exists s, nth_error (samples_of per h) (length (samples_of per h) - 1) = Some s /\
      slot per (snd s) = slot per p /\ snd s <= p.
Proof.
  intros Hp. induction h as [|[v t] h IH] using rev_ind; intros Hnd.
  - split; [intros i j a b _ Ha; destruct i; discriminate|]. split; [intros s []|]. discriminate.
  - pose proof (nondecreasing_snoc_ok _ _ _ Hnd) as Hok.
    destruct (IH (nondecreasing_app_l _ _ Hnd)) as (Hup & Hin & Hlast). clear IH.
    unfold samples_of. rewrite samples_snoc. fold (samples_of per h). rewrite last_time_app.
    unfold snoc_ok in Hok. destruct (last_time None h) as [p|] eqn:El.
    + destruct (Hlast p eq_refl) as (s & Es & Hs & Hsp). clear Hlast.
      destruct (Z.eqb_spec (slot per p) (slot per t)) as [E|E].
      * rewrite app_nil_r. split; [assumption|]. split.
        { intros s' Hs'. apply in_or_app. left. auto. }
        intros p' Ep. assert (t = p') by (cbn in Ep; congruence). subst p'.
        exists s. split; [assumption|]. lia.
      * pose proof (slot_mono per p t Hp Hok) as Hm.
        split; [|split].
        -- intros i j a b Hij Ha Hb. apply nth_error_snoc in Ha, Hb.
           destruct Hb as [[Hj Hb]|[Hj ->]].
           ++ destruct Ha as [[Hi Ha]|[Hi ->]]; [|lia]. apply (Hup i j); assumption.
           ++ destruct Ha as [[Hi Ha]|[Hi ->]]; [|lia]. cbn [snd].
              destruct (Nat.eq_dec i (length (samples_of per h) - 1)) as [Ei|Ei].
              ** assert (a = s) by congruence. subst a. lia.
              ** assert (slot per (snd a) < slot per (snd s))
                   by (apply (Hup i (length (samples_of per h) - 1)%nat); [lia|assumption|assumption]).
                 lia.
        -- intros s' Hs'. apply in_app_or in Hs'. apply in_or_app.
           destruct Hs' as [Hs'|Hs']; [left; auto|right; assumption].
        -- intros p' Ep. assert (t = p') by (cbn in Ep; congruence). subst p'.
           exists (v, t). rewrite app_length. cbn [length]. rewrite nth_error_app2 by lia.
           replace (_ + 1 - 1 - _)%nat with 0%nat by lia. cbn [snd]. split; [reflexivity|]. lia.
    + apply last_time_none in El. subst h. cbn [samples_of samples_after app].
      split; [|split].
      * intros i j a b Hij Ha Hb. destruct j as [|[|j]]; [lia|discriminate|discriminate].
      * intros s' Hs'. assumption.
      * intros p' Ep. assert (t = p') by (cbn in Ep; congruence). subst p'.
        exists (v, t). cbn [length snd]. split; [reflexivity|]. lia.
Qed.

Lemma slots_up_lt {V} per (l : list (V * Z)) : 0 < per -> slots_up per l ->
  forall i j a b, (i < j)%nat -> nth_error l i = Some a -> nth_error l j = Some b -> snd a < snd b.
Proof.
  intros Hp H i j a b Hij Ha Hb. specialize (H i j a b Hij Ha Hb).
  destruct (Z.lt_ge_cases (snd a) (snd b)) as [E|E]; [assumption|].
  pose proof (slot_mono per (snd b) (snd a) Hp E). lia.
Qed.

Lemma slots_up_nondecreasing {V} per (l : list (V * Z)) : 0 < per -> slots_up per l -> nondecreasing l.
Proof.
  intros Hp H i j a b Hij Ha Hb. destruct (Nat.eq_dec i j) as [->|E].
  - assert (a = b) by congruence. subst. lia.
  - pose proof (slots_up_lt per l Hp H i j a b ltac:(lia) Ha Hb). lia.
Qed.

Lemma slots_up_lastn {V} per n (l : list (V * Z)) : slots_up per l -> slots_up per (lastn n l).
Proof.
  intros H i j a b Hij Ha Hb. rewrite nth_error_lastn in Ha, Hb. eapply H; [|eassumption|eassumption]. lia.
Qed.

Lemma slots_up_diff {V} per (l : list (V * Z)) : slots_up per l ->
  forall k i a b, nth_error l i = Some a -> nth_error l (i + k) = Some b ->
    slot per (snd a) + Z.of_nat k <= slot per (snd b).
Proof.
  intros H. induction k as [|k IH]; intros i a b Ha Hb.
  - rewrite Nat.add_0_r in Hb. assert (a = b) by congruence. subst. lia.
  - destruct (nth_error l (i + k)) as [c|] eqn:Ec.
    + specialize (IH i a c Ha Ec). pose proof (H (i + k)%nat (i + S k)%nat c b ltac:(lia) Ec Hb). lia.
    + apply nth_error_None in Ec. assert (nth_error l (i + S k) <> None) as Hn by congruence.
      apply nth_error_Some in Hn. lia.
Qed.

(* --- reach ---------------------------------------------------------------------- *)

Lemma slot_gap per a b k : 0 < per -> slot per a + k <= slot per b -> a <= b -> per * (k - 1) < b - a.
Proof.
  intros Hp Hk Hab. destruct (slot_bounds per a Hp) as (A1 & A2 & A3).
  destruct (slot_bounds per b Hp) as (B1 & B2 & B3).
  assert (K : per * (slot per a + k) <= per * slot per b) by nia.
  destruct (Z.le_ge_cases 0 b) as [H|H].
  - specialize (B2 H). nia.
  - specialize (A3 ltac:(lia)). nia.
Qed.

Lemma lastn_app {T} n (l : list T) : exists pre, l = pre ++ lastn n l.
Proof. exists (firstn (length l - n) l). unfold lastn. now rewrite firstn_skipn. Qed.

Lemma curve_value_reach {V} (d : V) lerp per (h : list (V * Z)) cap p t r :
  0 < per -> (2 <= cap)%nat -> nondecreasing h -> last_time None h = Some p ->
  p - per * (Z.of_nat cap - 2) <= t ->
  curve_value d lerp (lastn cap (samples_of per h)) t r ->
  curve_value d lerp (samples_of per h) t r.
Proof.
  intros Hp Hc Hnd Hl Ht Hv.
  destruct (samples_facts per h Hp Hnd) as (Hup & _ & Hlast).
  destruct (Hlast p Hl) as (s & Es & Hs & Hsp). clear Hlast.
  set (l := samples_of per h) in *.
  destruct (Nat.le_gt_cases (length l) cap) as [E|E].
  { rewrite lastn_all in Hv by assumption. assumption. }
  (* the oldest retained sample is older than t *)
  destruct (nth_error l (length l - cap)) as [a|] eqn:Ea; [|apply nth_error_None in Ea; lia].
  assert (Ha : snd a < t).
  { pose proof (slots_up_diff per l Hup (cap - 1) (length l - cap) a s Ea) as Hd.
    replace (length l - cap + (cap - 1))%nat with (length l - 1)%nat in Hd by lia.
    specialize (Hd Es). rewrite Hs in Hd.
    assert (snd a < snd s).
    { apply (slots_up_lt per l Hp Hup (length l - cap) (length l - 1)); [lia|assumption|assumption]. }
    pose proof (slot_gap per (snd a) p _ Hp Hd ltac:(lia)). nia. }
  destruct (lastn_app cap l) as (pre0 & El).
  destruct Hv as [(Hall & ->)|[(s0 & rest & E0 & Ht0 & ->)|(pre & a' & b' & post & E0 & Hab & Hr)]].
  - left. split; [|reflexivity]. intros x Hx.
    apply In_nth_error in Hx. destruct Hx as (i & Ei).
    destruct (Nat.lt_ge_cases i (length l - cap)) as [Hi|Hi].
    + pose proof (slots_up_lt per l Hp Hup i (length l - cap) x a Hi Ei Ea). lia.
    + apply Hall. apply nth_error_In with (n := (i - (length l - cap))%nat).
      rewrite nth_error_lastn. replace (_ + _)%nat with i by lia. assumption.
  - exfalso. pose proof (nth_error_lastn cap l 0) as Hn. rewrite E0, Nat.add_0_r, Ea in Hn.
    cbn in Hn. assert (s0 = a) by congruence. subst. lia.
  - right. right. exists (pre0 ++ pre), a', b', post. split; [|split; assumption].
    rewrite El, E0, app_assoc. reflexivity.
Qed.

Lemma fcm_get_value_rep {V} (d : V) lerp cap per (m : fcm V) h t :
  (0 < cap)%nat -> 0 < per -> nondecreasing h -> fcm_rep cap per m h ->
  exists r, fcm_get_value d lerp m t = Some r /\
    curve_value d lerp (lastn cap (samples_of per h)) t r.
Proof.
  intros Hc Hp Hnd (H1 & H2 & H3).
  assert (Hsz : f_size (c_samples m) = length (lastn cap (samples_of per h))).
  { rewrite lastn_length. apply H1. }
  apply get_value_spec; [assumption| |].
  - intros i Hi. apply (fsm_rep_at cap _ _ H1). lia.
  - apply (slots_up_nondecreasing per); [assumption|]. apply slots_up_lastn.
    apply samples_facts; assumption.
Qed.

(* --- trackball ------------------------------------------------------------------ *)

Definition tb_rep {V} (b : tball V) (g : option (list (V * Z))) : Prop :=
  match g with
  | None => t_acquired b = false /\ exists h, fcm_rep 16 7 (t_mem b) h
  | Some [] => t_acquired b = true /\ t_no_track_yet b = Some true /\
      exists h, fcm_rep 16 7 (t_mem b) h
  | Some (((v0, t0) :: r) as h) =>
      t_acquired b = true /\ t_no_track_yet b = Some false /\ t_first_time b = Some t0 /\
      t_first_pos b = v0 /\ t_track_pos b = fst (last h (v0, t0)) /\
      t_track_millis b = Some (snd (last h (v0, t0)) - t0) /\
      fcm_rep 16 7 (t_mem b) (rebased h)
  end.

Lemma grab_app {V} (es : list (tb_event V)) e : grab (es ++ [e]) = grab_step (grab es) e.
Proof. unfold grab. rewrite fold_left_app. reflexivity. Qed.

Lemma tball_make_rep {V} (d : V) : exists b, tball_make d = Some b /\ tb_rep b None.
Proof.
  unfold tball_make.
  destruct (fcm_make_rep d g_millis_back g_max_samples) as (m & per & Em & Hs & Hp & Hr);
    [unfold g_millis_back; lia|unfold g_max_samples; lia|].
  rewrite Em. cbn [obind]. eexists. split; [reflexivity|]. split; [reflexivity|]. exists [].
  cbn [t_mem]. change (Z.to_nat g_max_samples) with 16%nat in Hr.
  assert (E : per = 7).
  { unfold smallest_per, g_millis_back, g_max_samples in Hs. destruct Hs as (S1 & S2).
    specialize (S2 7). lia. }
  subst per. assumption.
Qed.

Lemma rebased_snoc {V} (v0 : V) t0 r v t :
  rebased (((v0, t0) :: r) ++ [(v, t)]) = rebased ((v0, t0) :: r) ++ [(v, t - t0)].
Proof. unfold rebased. cbn [app]. rewrite !map_cons, map_app. reflexivity. Qed.

Lemma nondecreasing_rebased {V} (h : list (V * Z)) : nondecreasing h -> nondecreasing (rebased h).
Proof.
  destruct h as [|[v0 t0] r]; [easy|]. set (h := (v0, t0) :: r). intros H.
  change (rebased h) with (map (fun s : V * Z => (fst s, snd s - t0)) h).
  intros i j a b Hij Ha Hb. rewrite nth_error_map in Ha, Hb.
  destruct (nth_error h i) as [a'|] eqn:Ea; [|discriminate].
  destruct (nth_error h j) as [b'|] eqn:Eb; [|discriminate].
  cbn in Ha, Hb. pose proof (H i j a' b' Hij Ea Eb).
  injection Ha as <-. injection Hb as <-. cbn [snd]. lia.
Qed.

Lemma csub_long a b : in_range t_long a -> in_range t_long b -> in_range t_long (a - b) ->
  csub (t_long, a) (t_long, b) = Some (t_long, a - b).
Proof.
  intros Ha Hb Hc. unfold csub, cbin. cbn [fst snd]. change (uac t_long t_long) with t_long.
  assert (K : ity_ok t_long) by (unfold ity_ok; cbn; lia).
  rewrite !wrap_id by assumption. unfold norm. change (isigned t_long) with true. cbv iota.
  replace (in_rangeb t_long (a - b)) with true; [reflexivity|].
  symmetry. unfold in_range in Hc. unfold in_rangeb. lia.
Qed.

Lemma last_snoc {A} (l : list A) x d : last (l ++ [x]) d = x.
Proof. apply last_last. Qed.

Lemma long_range t : 0 <= t < 2 ^ 63 -> in_range t_long t.
Proof. intros H. unfold in_range, imin, imax, t_long. cbn [isigned iwidth]. lia. Qed.

Lemma nondecreasing_first {V} (v0 : V) t0 r s : nondecreasing ((v0, t0) :: r) ->
  In s ((v0, t0) :: r) -> t0 <= snd s.
Proof.
  intros H Hs. apply In_nth_error in Hs. destruct Hs as (i & Ei).
  apply (H 0%nat i (v0, t0) s); [lia|reflexivity|assumption].
Qed.

Lemma tball_track_rep {V} (b : tball V) g pos time : tb_rep b g ->
  grab_ok (grab_step g (Track pos time)) ->
  exists b', tball_track b pos time = Some b' /\ tb_rep b' (grab_step g (Track pos time)).
Proof.
  intros Hb Hok. unfold tball_track. destruct g as [h|].
  - cbn [grab_step] in *. destruct Hok as (Hnd & Hr).
    pose proof (Hr (pos, time) ltac:(apply in_or_app; right; left; reflexivity)) as Ht. cbn [snd] in Ht.
    destruct h as [|[v0 t0] r].
    + destruct Hb as (H1 & H2 & h & H3). rewrite H1, H2. cbn [obind].
      destruct (fcm_add_value_rep 16 7 (fcm_clear (t_mem b)) [] pos 0) as (m & Em & Hm);
        [lia|lia|apply long_range; lia|apply long_range; lia|exact I|eapply fcm_clear_rep; eassumption|].
      rewrite Em. cbn [obind]. eexists. split; [reflexivity|].
      cbn [app tb_rep t_acquired t_no_track_yet t_first_time t_first_pos t_track_pos
           t_track_millis t_mem last fst snd rebased map].
      rewrite Z.sub_diag. do 6 (split; [reflexivity|]). assumption.
    + destruct Hb as (H1 & H2 & H3 & H4 & H5 & H6 & H7). rewrite H1, H2, H3. cbn [obind].
      assert (H0 : t0 <= time).
      { apply (nondecreasing_first v0 t0 (r ++ [(pos, time)]) (pos, time) Hnd).
        right. apply in_or_app. right. left. reflexivity. }
      pose proof (Hr (v0, t0) ltac:(left; reflexivity)) as Ht0. cbn [snd] in Ht0.
      rewrite csub_long by (apply long_range; lia). cbn [obind snd].
      destruct (fcm_add_value_rep 16 7 (t_mem b) (rebased ((v0, t0) :: r)) pos (time - t0))
        as (m & Em & Hm); [lia|lia|apply long_range; lia|apply long_range; lia| |assumption|].
      { apply (nondecreasing_snoc_ok _ pos). rewrite <- rebased_snoc. apply nondecreasing_rebased.
        assumption. }
      rewrite Em. cbn [obind]. eexists. split; [reflexivity|].
      rewrite <- rebased_snoc in Hm.
      change ((v0, t0) :: r) with ([(v0, t0)] ++ r). rewrite <- app_assoc.
      cbn [app]. cbn [tb_rep t_acquired t_no_track_yet t_first_time t_first_pos t_track_pos
           t_track_millis t_mem].
      change ((v0, t0) :: r ++ [(pos, time)]) with (((v0, t0) :: r) ++ [(pos, time)]).
      rewrite last_snoc. cbn [fst snd].
      do 6 (split; [first [reflexivity|assumption]|]). assumption.
  - destruct Hb as (H1 & H2). rewrite H1. eexists. split; [reflexivity|]. split; assumption.
Qed.

(* the outcome of release() for a grab *)
Definition release_ok {V} (d : V) lerp (near : V -> V -> bool) (g : option (list (V * Z)))
    (out : released V) : Prop :=
  match g with
  | None => out = Ignored
  | Some [] => out = Stopped
  | Some (((v0, t0) :: r) as h) =>
    let (v1, t1) := last h (v0, t0) in
    if (t1 - t0 <? 200) && near v0 v1 then out = Stopped
    else
      let back := Z.min 100 (t1 - t0) in
      let kept := lastn 16 (samples_of 7 (rebased h)) in
      exists pos, out = Spun pos back /\
        (exists s, In s kept /\ t1 - t0 - back <= snd s) /\
        curve_value d lerp kept (t1 - t0 - back) pos
  end.

Lemma last_time_rebased {V} (v0 : V) t0 r :
  last_time None (rebased ((v0, t0) :: r)) = Some (snd (last ((v0, t0) :: r) (v0, t0)) - t0).
Proof.
  set (h := (v0, t0) :: r). change (rebased h) with (map (fun s : V * Z => (fst s, snd s - t0)) h).
  assert (Hh : h <> []) by discriminate. clearbody h.
  destruct h as [|x h] using rev_ind; [congruence|]. clear.
  rewrite map_app, last_snoc. cbn [map]. rewrite last_time_app. reflexivity.
Qed.

Lemma last_In {A} (l : list A) d : l <> [] -> In (last l d) l.
Proof.
  destruct l as [|x l] using rev_ind; [congruence|]. intros _. rewrite last_snoc.
  apply in_or_app. right. left. reflexivity.
Qed.

Lemma tball_release_rep {V} (d : V) lerp near (b : tball V) g : tb_rep b g -> grab_ok g ->
  exists b' out, tball_release d lerp near b = Some (b', out) /\ tb_rep b' None /\
    release_ok d lerp near g out.
Proof.
  intros Hb Hok. unfold tball_release. destruct g as [h|].
  - destruct Hok as (Hnd & Hr). destruct h as [|[v0 t0] r].
    + destruct Hb as (H1 & H2 & h & H3). rewrite H1, H2. cbn [obind].
      eexists _, _. split; [reflexivity|]. split; [|reflexivity]. split; [reflexivity|].
      exists h. assumption.
    + destruct Hb as (H1 & H2 & H3 & H4 & H5 & H6 & H7). rewrite H1, H2, H6, H4, H5. cbn [obind].
      unfold release_ok.
      pose proof (last_time_rebased v0 t0 r) as Hlt.
      pose proof (last_In ((v0, t0) :: r) (v0, t0) ltac:(discriminate)) as Hin.
      set (h := (v0, t0) :: r) in *.
      destruct (last h (v0, t0)) as [v1 t1] eqn:El. cbn [fst snd] in *.
      assert (Hn : tb_rep (tball_leave b) None).
      { split; [reflexivity|]. exists (rebased h). assumption. }
      destruct ((t1 - t0 <? 200) && near v0 v1).
      { eexists _, _. split; [reflexivity|]. split; [assumption|reflexivity]. }
      assert (H01 : t0 <= t1) by (apply (nondecreasing_first v0 t0 r (v1, t1) Hnd Hin)).
      pose proof (Hr (v1, t1) Hin) as R1. pose proof (Hr (v0, t0) ltac:(left; reflexivity)) as R0.
      cbn [snd] in R0, R1.
      assert (Eb : (if t1 - t0 <? g_millis_back then t1 - t0 else g_millis_back) = Z.min 100 (t1 - t0)).
      { unfold g_millis_back. destruct (Z.ltb_spec (t1 - t0) 100); lia. }
      rewrite Eb. set (back := Z.min 100 (t1 - t0)) in *.
      rewrite csub_long by (apply long_range; lia). cbn [obind snd].
      pose proof (nondecreasing_rebased h Hnd) as Hndr.
      destruct (fcm_get_value_rep d lerp 16 7 (t_mem b) (rebased h) (t1 - t0 - back))
        as (pos & Ep & Hv); [lia|lia|assumption|assumption|].
      rewrite Ep. cbn [obind]. eexists _, _. split; [reflexivity|]. split; [assumption|].
      exists pos. split; [reflexivity|]. split; [|assumption].
      destruct (samples_facts 7 (rebased h) ltac:(lia) Hndr) as (_ & Hsub & Hlast).
      destruct (Hlast _ Hlt) as (s & Es & Hs & Hsp).
      exists s. split.
      * set (l := samples_of 7 (rebased h)) in *.
        assert (nth_error l (length l - 1) <> None) as Hne by congruence. apply nth_error_Some in Hne.
        apply nth_error_In with (n := (Nat.min 16 (length l) - 1)%nat).
        rewrite nth_error_lastn.
        replace (length l - 16 + (Nat.min 16 (length l) - 1))%nat with (length l - 1)%nat by lia.
        assumption.
      * assert (Hs0 : 0 <= snd s).
        { assert (Hi : In s (rebased h)).
          { apply Hsub. eapply nth_error_In. eassumption. }
          unfold h in Hi. cbn [rebased] in Hi. fold h in Hi. apply in_map_iff in Hi.
          destruct Hi as (x & <- & Hx). cbn [snd].
          pose proof (nondecreasing_first v0 t0 r x Hnd Hx). lia. }
        destruct (slot_bounds 7 (snd s) ltac:(lia)) as (_ & S2 & _). specialize (S2 Hs0).
        destruct (slot_bounds 7 (t1 - t0) ltac:(lia)) as (T1 & _ & _).
        unfold back. lia.
  - destruct Hb as (H1 & H2). rewrite H1. eexists _, _. split; [reflexivity|].
    split; [split; assumption|reflexivity].
Qed.

Lemma tball_calls_rep {V} (d : V) lerp near (es : list (tb_event V)) :
  (forall pre post, es = pre ++ post -> grab_ok (grab pre)) ->
  exists b, tball_calls d lerp near (tball_make d) es = Some b /\ tb_rep b (grab es).
Proof.
  induction es as [|e es IH] using rev_ind; intros Hok.
  - apply tball_make_rep.
  - destruct IH as (b & Eb & Hb).
    { intros pre post ->. apply (Hok pre (post ++ [e])). rewrite app_assoc. reflexivity. }
    pose proof (Hok es [e] eq_refl) as Hok1.
    pose proof (Hok (es ++ [e]) [] (eq_sym (app_nil_r _))) as Hok2.
    unfold tball_calls in *. rewrite fold_left_app, Eb. cbn [fold_left tball_call obind].
    rewrite grab_app in *. destruct e as [|pos time| |].
    + eexists. split; [reflexivity|]. unfold tball_acquire. destruct (grab es) as [h|].
      * cbn [grab_step]. replace (t_acquired b) with true; [assumption|].
        destruct h as [|[v0 t0] r]; symmetry; apply Hb.
      * destruct Hb as (H1 & h & H2). rewrite H1. cbn [grab_step]. split; [reflexivity|].
        split; [reflexivity|]. exists h. assumption.
    + apply tball_track_rep; assumption.
    + eexists. split; [reflexivity|]. cbn [grab_step]. split; [reflexivity|].
      cbn [tball_leave t_mem]. destruct (grab es) as [[|[v0 t0] r]|].
      * apply Hb.
      * exists (rebased ((v0, t0) :: r)). apply Hb.
      * apply Hb.
    + destruct (tball_release_rep d lerp near b (grab es) Hb Hok1) as (b' & out & E & Hb' & _).
      rewrite E. cbn [obind fst]. eexists. split; [reflexivity|].
      destruct (grab es); exact Hb'.
Qed.
