(* Lemmas about the sequence memory, the curve memory and the trackball. *)

From Coq Require Import ZArith Bool List Lia.
From Verif Require Import CInt IntModel IntProofs IntProofs2 CurveMemModel CurveMemSpec ArrLib.
Import ListNotations.
Open Scope nat_scope.

(* --- sequence memory ------------------------------------------------------------ *)

Lemma lastn_length {T} n (l : list T) : length (lastn n l) = Nat.min n (length l).
Proof. unfold lastn. rewrite skipn_length. lia. Qed.

Lemma nth_error_skipn' {T} (l : list T) : forall n i, nth_error (skipn n l) i = nth_error l (n + i).
Proof.
  induction l as [|x l IH]; intros n i.
  - rewrite skipn_nil. destruct i, n; reflexivity.
  - destruct n; [reflexivity|]. cbn. apply IH.
Qed.

Lemma nth_error_lastn {T} n (l : list T) i : nth_error (lastn n l) i = nth_error l (length l - n + i).
Proof. apply nth_error_skipn'. Qed.

Lemma lastn_all {T} n (l : list T) : length l <= n -> lastn n l = l.
Proof. intros H. unfold lastn. replace (length l - n) with 0 by lia. reflexivity. Qed.

Definition fsm_rep {T} (cap : nat) (m : fsm T) (h : list T) : Prop :=
  length (f_buffer m) = cap /\ f_capacity m = cap /\
  f_size m = Nat.min cap (length h) /\
  f_offset m < cap /\ (f_size m < cap -> f_offset m = 0) /\
  forall i, i < f_size m ->
    nth_error (lastn cap h) i =
    nth_error (f_buffer m) (if i <? f_size m - f_offset m then f_offset m + i
                            else i - (f_size m - f_offset m)).

Lemma fsm_rep_at {T} cap (m : fsm T) h : fsm_rep cap m h ->
  forall i, i < f_size m -> fsm_at m i = nth_error (lastn cap h) i.
Proof.
  intros (H1 & H2 & H3 & H4 & H5 & H6) i Hi. unfold fsm_at, usub.
  assert (Ho : f_offset m <= f_size m).
  { destruct (Nat.lt_ge_cases (f_size m) cap) as [E|E]; [rewrite H5 by assumption; lia|lia]. }
  apply Nat.leb_le in Ho. rewrite Ho. cbn [obind]. rewrite H6 by assumption.
  destruct (Nat.ltb_spec i (f_size m - f_offset m)); [reflexivity|].
  assert (E : (f_size m - f_offset m <=? i) = true) by (apply Nat.leb_le; lia).
  rewrite E. reflexivity.
Qed.

Lemma fsm_rep_empty {T} cap (m : fsm T) h : fsm_rep cap m h -> 0 < cap ->
  fsm_empty m = match h with [] => true | _ => false end.
Proof.
  intros (_ & _ & H3 & _) Hc. unfold fsm_empty. rewrite H3.
  destruct h; cbn [length]; [rewrite Nat.min_0_r; reflexivity|].
  apply Nat.eqb_neq. lia.
Qed.

Lemma fsm_push_back_rep {T} cap (m : fsm T) h v : fsm_rep cap m h ->
  exists m', fsm_push_back m v = Some m' /\ fsm_rep cap m' (h ++ [v]).
Proof.
  intros (H1 & H2 & H3 & H4 & H5 & H6). unfold fsm_push_back. rewrite H2.
  destruct (Nat.eqb_spec (f_size m) cap) as [E|E].
  - destruct (set_nth (f_buffer m) (f_offset m) v) as [b|] eqn:Eb;
      [|rewrite set_nth_some in Eb by lia; discriminate].
    cbn [obind]. eexists. split; [reflexivity|]. unfold fsm_rep. cbn [f_buffer f_capacity f_size f_offset].
    rewrite app_length. cbn [length].
    split; [rewrite (set_nth_length _ _ _ _ Eb); assumption|]. split; [reflexivity|].
    split; [lia|].
    split; [destruct (Nat.eqb_spec (f_offset m + 1) (f_size m)); lia|].
    split; [lia|].
    intros i Hi. rewrite (nth_error_set_nth _ _ _ _ _ Eb).
    rewrite nth_error_lastn, app_length. cbn [length].
    (* the element i of the new sequence is element i + 1 of the old one, or v *)
    destruct (Nat.eq_dec (i + 1) cap) as [Ei|Ei].
    + rewrite nth_error_app2 by lia. replace (_ - length h) with 0 by lia. cbn [nth_error].
      match goal with |- _ = if ?c then _ else _ => replace c with true end; [reflexivity|].
      symmetry. apply Nat.eqb_eq.
      destruct (Nat.eqb_spec (f_offset m + 1) (f_size m)) as [E1|E1].
      * rewrite Nat.sub_0_r. destruct (Nat.ltb_spec i (f_size m)); lia.
      * destruct (Nat.ltb_spec i (f_size m - (f_offset m + 1))); lia.
    + rewrite nth_error_app1 by lia.
      specialize (H6 (i + 1)). rewrite nth_error_lastn in H6.
      replace (length h + 1 - cap + i) with (length h - cap + (i + 1)) by lia.
      rewrite H6 by lia.
      match goal with |- _ = if ?c then _ else _ => replace c with false end.
      * f_equal. destruct (Nat.eqb_spec (f_offset m + 1) (f_size m)) as [E1|E1].
        -- rewrite Nat.sub_0_r. destruct (Nat.ltb_spec i (f_size m)); [|lia].
           destruct (Nat.ltb_spec (i + 1) (f_size m - f_offset m)); lia.
        -- destruct (Nat.ltb_spec i (f_size m - (f_offset m + 1)));
             destruct (Nat.ltb_spec (i + 1) (f_size m - f_offset m)); lia.
      * symmetry. apply Nat.eqb_neq.
        destruct (Nat.eqb_spec (f_offset m + 1) (f_size m)) as [E1|E1].
        -- rewrite Nat.sub_0_r. destruct (Nat.ltb_spec i (f_size m)); lia.
        -- destruct (Nat.ltb_spec i (f_size m - (f_offset m + 1))); lia.
  - assert (Ho : f_offset m = 0) by (apply H5; lia). rewrite Ho. cbn [Nat.eqb].
    destruct (set_nth (f_buffer m) (f_size m) v) as [b|] eqn:Eb;
      [|rewrite set_nth_some in Eb by lia; discriminate].
    cbn [obind]. eexists. split; [reflexivity|]. unfold fsm_rep. cbn [f_buffer f_capacity f_size f_offset].
    rewrite app_length. cbn [length].
    split; [rewrite (set_nth_length _ _ _ _ Eb); assumption|]. split; [reflexivity|].
    split; [lia|]. split; [lia|]. split; [reflexivity|].
    intros i Hi. rewrite (nth_error_set_nth _ _ _ _ _ Eb), lastn_all
      by (rewrite app_length; cbn [length]; lia).
    rewrite Nat.sub_0_r. destruct (Nat.ltb_spec i (f_size m + 1)); [|lia]. cbn [Nat.add].
    destruct (Nat.eqb_spec i (f_size m)) as [->|E2].
    + rewrite nth_error_app2 by lia. replace (_ - length h) with 0 by lia. reflexivity.
    + rewrite nth_error_app1 by lia. specialize (H6 i). rewrite lastn_all in H6 by lia.
      rewrite H6 by lia. rewrite Ho, Nat.sub_0_r. destruct (Nat.ltb_spec i (f_size m)); [reflexivity|lia].
Qed.

Lemma fsm_clear_rep {T} cap (m : fsm T) h : fsm_rep cap m h -> fsm_rep cap (fsm_clear m) [].
Proof.
  intros (H1 & H2 & H3 & H4 & H5 & H6). unfold fsm_rep, fsm_clear.
  cbn [f_buffer f_capacity f_size f_offset length].
  split; [assumption|]. split; [assumption|]. split; [lia|]. split; [lia|]. split; [reflexivity|].
  intros i Hi. lia.
Qed.

Lemma fsm_make_rep {T} (d : T) cap : (1 <= cap < 2 ^ 63)%Z ->
  exists m, fsm_make d cap = Some m /\ fsm_rep (Z.to_nat cap) m [].
Proof.
  intros Hc. unfold fsm_make.
  assert (E : can_int_cast t_long t_size cap = true).
  { rewrite can_int_cast_spec; [|unfold ity_ok; cbn; lia|unfold ity_ok; cbn; lia|
      unfold in_range, imin, imax, t_size; cbn [isigned iwidth]; lia].
    unfold in_rangeb, imin, imax, t_long. cbn [isigned iwidth]. lia. }
  rewrite E. eexists. split; [reflexivity|]. unfold fsm_rep.
  cbn [f_buffer f_capacity f_size f_offset length].
  split; [apply repeat_length|]. split; [reflexivity|]. split; [lia|]. split; [lia|].
  split; [reflexivity|]. intros i Hi. lia.
Qed.

(* --- sampling ------------------------------------------------------------------- *)

Open Scope Z_scope.

Definition last_time {V} (prev : option Z) (h : list (V * Z)) : option Z :=
  fold_left (fun _ s => Some (snd s)) h prev.

Lemma last_time_app {V} prev (h : list (V * Z)) s : last_time prev (h ++ [s]) = Some (snd s).
Proof. unfold last_time. rewrite fold_left_app. reflexivity. Qed.

Lemma samples_snoc {V} per (h : list (V * Z)) : forall prev v t,
  samples_after per prev (h ++ [(v, t)]) =
  samples_after per prev h ++
    match last_time prev h with
    | Some p => if slot per p =? slot per t then [] else [(v, t)]
    | None => [(v, t)]
    end.
Proof.
  induction h as [|[w u] h IH]; intros prev v t.
  - cbn. destruct prev as [p|]; [destruct (slot per p =? slot per t)|]; reflexivity.
  - cbn [app samples_after]. rewrite IH. cbn [last_time fold_left snd].
    change (fold_left (fun _ s => Some (snd s)) h (Some u)) with (last_time (Some u) h).
    destruct prev as [p|]; [destruct (slot per p =? slot per u)|]; reflexivity.
Qed.

Lemma samples_of_nil {V} per (h : list (V * Z)) : samples_of per h = [] -> h = [].
Proof. destruct h as [|[v t] h]; [reflexivity|]. discriminate. Qed.

Lemma slot_mono per a b : 0 < per -> a <= b -> slot per a <= slot per b.
Proof. intros. apply Z.quot_le_mono; lia. Qed.

Lemma slot_bounds per t : 0 < per ->
  per * slot per t - per < t < per * slot per t + per /\
  (0 <= t -> 0 <= slot per t /\ per * slot per t <= t) /\
  (t <= 0 -> slot per t <= 0 /\ t <= per * slot per t).
Proof.
  intros Hp. unfold slot.
  pose proof (Z.quot_rem' t per) as E.
  destruct (Z.le_ge_cases 0 t) as [H|H].
  - pose proof (Z.rem_bound_pos t per H Hp). pose proof (Z.quot_pos t per H Hp).
    split; [lia|]. split; intros; [lia|]. assert (t = 0) by lia. subst. cbn. lia.
  - assert (- per < Z.rem t per <= 0).
    { pose proof (Z.rem_bound_pos (- t) per ltac:(lia) Hp) as K.
      rewrite Z.rem_opp_l in K by lia. lia. }
    assert (Z.quot t per <= 0).
    { replace t with (- (- t)) by lia. rewrite Z.quot_opp_l by lia.
      pose proof (Z.quot_pos (- t) per). lia. }
    split; [lia|]. split; intros; [|lia]. assert (t = 0) by lia. subst. cbn in *. lia.
Qed.

Lemma cdiv_long t per : in_range t_long t -> in_range t_long per -> 0 < per ->
  cdiv (t_long, t) (t_long, per) = Some (t_long, slot per t).
Proof.
  intros Ht Hr Hp. unfold cdiv. cbn [fst snd].
  change (uac t_long t_long) with t_long.
  assert (K : ity_ok t_long) by (unfold ity_ok; cbn; lia).
  rewrite !wrap_id by assumption.
  destruct (Z.eqb_spec per 0); [lia|].
  unfold norm. change (isigned t_long) with true. cbv iota.
  replace (in_rangeb t_long (Z.quot t per)) with true; [reflexivity|].
  symmetry. unfold in_range, in_rangeb, imin, imax, t_long in *. cbn [isigned iwidth] in *.
  destruct (slot_bounds per t Hp) as (A & B & C). unfold slot in *.
  destruct (Z.le_ge_cases 0 t) as [H|H].
  - specialize (B H). nia.
  - specialize (C H). nia.
Qed.

(* --- curve memory --------------------------------------------------------------- *)

Definition fcm_rep {V} (cap : nat) (per : Z) (m : fcm V) (h : list (V * Z)) : Prop :=
  fsm_rep cap (c_samples m) (samples_of per h) /\ c_per_barrier m = per /\
  match last_time None h with Some p => c_last_barrier m = slot per p | None => h = [] end.

Definition snoc_ok {V} (h : list (V * Z)) (t : Z) : Prop :=
  match last_time None h with Some p => p <= t | None => True end.

Lemma last_time_none {V} (h : list (V * Z)) : last_time None h = None -> h = [].
Proof.
  destruct h as [|s h] using rev_ind; [reflexivity|]. rewrite last_time_app. discriminate.
Qed.

Lemma fcm_add_value_rep {V} cap per (m : fcm V) h v t : (0 < cap)%nat -> 0 < per ->
  in_range t_long per -> in_range t_long t -> snoc_ok h t -> fcm_rep cap per m h ->
  exists m', fcm_add_value m v t = Some m' /\ fcm_rep cap per m' (h ++ [(v, t)]).
Proof.
  intros Hcap Hper Rper Rt Hs (H1 & H2 & H3). unfold fcm_add_value. rewrite H2.
  rewrite cdiv_long by assumption. cbn [obind snd].
  rewrite (fsm_rep_empty cap _ _ H1 Hcap).
  unfold fcm_rep, samples_of. rewrite samples_snoc, last_time_app. cbn [snd].
  fold (samples_of per h).
  unfold snoc_ok in Hs. destruct (last_time None h) as [p|] eqn:El.
  - pose proof (slot_mono per p t Hper Hs) as Hm.
    destruct (samples_of per h) as [|s0 l] eqn:Es.
    { apply samples_of_nil in Es. subst h. discriminate. }
    cbn [orb]. rewrite H3.
    destruct (Z.ltb_spec (slot per p) (slot per t)) as [E|E];
      destruct (Z.eqb_spec (slot per p) (slot per t)) as [E'|E']; try lia.
    + destruct (fsm_push_back_rep cap (c_samples m) _ (v, t) H1) as (m2 & Em & Hm2).
      rewrite Em. cbn [obind]. eexists. split; [reflexivity|].
      cbn [c_samples c_per_barrier c_last_barrier].
      split; [assumption|]. split; reflexivity.
    + eexists. split; [reflexivity|]. rewrite app_nil_r. split; [assumption|].
      split; [assumption|]. congruence.
  - subst h. cbn [samples_of samples_after orb].
    destruct (fsm_push_back_rep cap (c_samples m) _ (v, t) H1) as (m2 & Em & Hm2).
    rewrite Em. cbn [obind]. eexists. split; [reflexivity|].
    cbn [c_samples c_per_barrier c_last_barrier].
    split; [assumption|]. split; reflexivity.
Qed.

Lemma fcm_clear_rep {V} cap per (m : fcm V) h : fcm_rep cap per m h -> fcm_rep cap per (fcm_clear m) [].
Proof.
  intros (H1 & H2 & H3). split; [eapply fsm_clear_rep; eassumption|]. split; [assumption|]. reflexivity.
Qed.

Lemma smallest_per_ceil back n : 0 < n -> smallest_per back n (- (- back / n)).
Proof.
  intros Hn. pose proof (Z.div_mod (- back) n ltac:(lia)) as E.
  pose proof (Z.mod_pos_bound (- back) n Hn). unfold smallest_per. split; [nia|].
  intros p Hp. nia.
Qed.

Lemma fcm_make_rep {V} (d : V) back maxs : 1 <= back < 2 ^ 63 -> 2 <= maxs < 2 ^ 63 ->
  exists m per, fcm_make d back maxs = Some m /\ smallest_per back (maxs - 1) per /\
    1 <= per <= back /\ fcm_rep (Z.to_nat maxs) per m [].
Proof.
  intros Hb Hm. unfold fcm_make.
  destruct (fsm_make_rep (d, 0) maxs ltac:(lia)) as (m & Em & Hrep). rewrite Em. cbn [obind].
  assert (K : ity_ok t_long) by (unfold ity_ok; cbn; lia).
  assert (K' : ity_ok t_size) by (unfold ity_ok; cbn; lia).
  assert (R : in_range t_size (maxs - 1)).
  { unfold in_range, imin, imax, t_size. cbn [isigned iwidth]. lia. }
  rewrite wrap_id by assumption.
  rewrite int_div_round_up_spec; try assumption; try lia;
    [|unfold in_range, imin, imax, t_long; cbn [isigned iwidth]; lia].
  cbn [obind]. eexists. exists (- (- back / (maxs - 1))). split; [reflexivity|].
  pose proof (smallest_per_ceil back (maxs - 1) ltac:(lia)) as Hs.
  split; [assumption|].
  split.
  - destruct Hs as (S1 & S2). split; [nia|]. apply S2. nia.
  - split; [assumption|]. split; reflexivity.
Qed.

(* --- lower bound ---------------------------------------------------------------- *)

Lemma lb_loop_spec {V} (m : fsm (V * Z)) (l : list (V * Z)) t :
  f_size m = length l -> (forall i, (i < length l)%nat -> fsm_at m i = nth_error l i) ->
  nondecreasing l ->
  forall fuel i size, (size < fuel)%nat -> (i + size <= length l)%nat ->
  (forall j s, (j < i)%nat -> nth_error l j = Some s -> snd s < t) ->
  (forall j s, (i + size <= j)%nat -> nth_error l j = Some s -> t <= snd s) ->
  exists k, lb_loop fuel m t i size = Some k /\ (k <= length l)%nat /\
    (forall j s, (j < k)%nat -> nth_error l j = Some s -> snd s < t) /\
    (forall j s, (k <= j)%nat -> nth_error l j = Some s -> t <= snd s).
Proof.
  intros Hsz Hat Hnd. induction fuel as [|fuel IH]; intros i size Hf Hle Hlo Hhi; [lia|].
  cbn [lb_loop]. destruct (Nat.ltb_spec 0 size) as [Hs|Hs].
  - pose proof (Nat.div_lt size 2 Hs ltac:(lia)) as Hd. set (half := Nat.div size 2) in *.
    destruct (nth_error l (i + half)) as [s|] eqn:En;
      [|apply nth_error_None in En; lia].
    rewrite Hat by lia. rewrite En. cbn [obind]. unfold s_millis.
    destruct (Z.ltb_spec (snd s) t) as [E|E].
    + unfold usub. destruct (Nat.leb_spec (half + 1) size); [|lia]. cbn [obind].
      apply IH; [lia|lia| |].
      * intros j s' Hj Ej. assert (snd s' <= snd s) by (apply (Hnd j (i + half)%nat); [lia|assumption|assumption]). lia.
      * intros j s' Hj Ej. apply (Hhi j); [lia|assumption].
    + apply IH; [lia|lia|assumption|].
      intros j s' Hj Ej. assert (snd s <= snd s') by (apply (Hnd (i + half)%nat j); [lia|assumption|assumption]). lia.
  - exists i. split; [reflexivity|]. split; [lia|]. split; [assumption|].
    intros j s Hj. apply Hhi. lia.
Qed.

Lemma nth_error_split2 {A} (l : list A) k a b :
  nth_error l k = Some a -> nth_error l (S k) = Some b ->
  exists pre post, l = pre ++ a :: b :: post.
Proof.
  intros Ha Hb. destruct (nth_error_split l k Ha) as (pre & post & -> & Hl). subst k.
  rewrite nth_error_app2 in Hb by lia. replace (S (length pre) - length pre)%nat with 1%nat in Hb by lia.
  destruct post as [|b' post]; [discriminate|]. cbn in Hb. injection Hb as ->.
  exists pre, post. reflexivity.
Qed.

Lemma get_value_spec {V} (d : V) lerp (m : fcm V) (l : list (V * Z)) t :
  f_size (c_samples m) = length l ->
  (forall i, (i < length l)%nat -> fsm_at (c_samples m) i = nth_error l i) ->
  nondecreasing l ->
  exists r, fcm_get_value d lerp m t = Some r /\ curve_value d lerp l t r.
Proof.
  intros Hsz Hat Hnd. unfold fcm_get_value, fcm_lower_bound.
  destruct (lb_loop_spec (c_samples m) l t Hsz Hat Hnd (S (f_size (c_samples m))) 0
              (f_size (c_samples m))) as (k & Ek & Hk & Hlo & Hhi).
  { lia. } { lia. } { lia. }
  { intros j s Hj Ej. assert (nth_error l j <> None) as Hn by congruence.
    apply nth_error_Some in Hn. lia. }
  rewrite Ek. cbn [obind]. rewrite Hsz.
  destruct (Nat.eqb_spec k (length l)) as [E|E].
  - eexists. split; [reflexivity|]. left. split; [|reflexivity].
    intros s Hs. apply In_nth_error in Hs. destruct Hs as (j & Ej).
    apply (Hlo j); [|assumption]. assert (nth_error l j <> None) as Hn by congruence.
    apply nth_error_Some in Hn. lia.
  - rewrite Hat by lia. destruct (nth_error l k) as [b|] eqn:Eb; [|apply nth_error_None in Eb; lia].
    cbn [obind]. unfold s_millis, s_value. pose proof (Hhi k b ltac:(lia) Eb) as Hb.
    destruct (Nat.eqb_spec k 0) as [E0|E0].
    + rewrite orb_true_r. eexists. split; [reflexivity|]. right. left.
      subst k. destruct l as [|s l]; [discriminate|]. cbn in Eb. exists s, l.
      assert (s = b) by congruence. subst. auto.
    + rewrite orb_false_r. rewrite Hat by lia.
      destruct (nth_error l (k - 1)) as [a|] eqn:Ea; [|apply nth_error_None in Ea; lia].
      pose proof (Hlo (k - 1)%nat a ltac:(lia) Ea) as Ha.
      destruct (nth_error_split2 l (k - 1) a b Ea) as (pre & post & El).
      { replace (S (k - 1)) with k by lia. assumption. }
      destruct (Z.eqb_spec (snd b) t) as [Et|Et].
      * eexists. split; [reflexivity|]. right. right. exists pre, a, b, post.
        split; [assumption|]. split; [lia|]. left. auto.
      * cbn [obind]. eexists. split; [reflexivity|]. right. right. exists pre, a, b, post.
        split; [assumption|]. split; [lia|]. right. split; [lia|reflexivity].
Qed.
