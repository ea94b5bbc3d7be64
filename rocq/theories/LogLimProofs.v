(* Lemmas about loggers *)
From Coq Require Import ZArith Bool List Lia Sorted.
From Verif Require Import LogLimModel LogLimSpec ArrLib.
Import ListNotations.
Local Open Scope Z_scope.

Definition current (st : store) (i : nat) : Z := li_variable (get_impl st i).

(* the routes of a sink *)
Fixpoint routes (s : sink) : list route :=
  match s with
  | StreamSink id => [(id, [], [])]
  | NullSink => []
  | LimitSink i s => map (fun r : route => (fst r, i :: snd r)) (routes s)
  | DupSink p1 p2 s1 s2 => suffix (format_prefix p1) (routes s1) ++ suffix (format_prefix p2) (routes s2)
  end.

Lemma suffix_suffix : forall a b rs, suffix b (suffix a rs) = suffix (a ++ b) rs.
Proof.
  intros a b rs. unfold suffix. rewrite map_map. apply map_ext. intros [[id p] l]. rewrite app_assoc. reflexivity.
Qed.

Lemma suffix_app : forall t a b, suffix t (a ++ b) = suffix t a ++ suffix t b.
Proof. intros. apply map_app. Qed.

Lemma suffix_nil : forall rs, suffix [] rs = rs.
Proof. intros rs. unfold suffix. rewrite <- map_id. apply map_ext. intros [[id p] l]. rewrite app_nil_r. reflexivity. Qed.

Lemma suffix_limit : forall t i rs, suffix t (map (fun r : route => (fst r, i :: snd r)) rs) =
  map (fun r : route => (fst r, i :: snd r)) (suffix t rs).
Proof. intros t i rs. unfold suffix. rewrite !map_map. apply map_ext. intros [[id p] l]. reflexivity. Qed.

Lemma combine_right : forall p q, format_prefix (combine p q) = format_prefix q ++ format_prefix p.
Proof. intros [| |] [| |]; unfold combine; cbn [is_null_prefix format_prefix app]; rewrite ?app_nil_r; reflexivity. Qed.

Lemma simplified_right : forall p q, format_prefix (get_simplified p q) = format_prefix p ++ format_prefix q.
Proof. intros [| |] [| |]; unfold get_simplified; cbn [is_null_prefix format_prefix app]; rewrite ?app_nil_r; reflexivity. Qed.

Lemma reached_app : forall cur level a b, reached cur level (a ++ b) = reached cur level a ++ reached cur level b.
Proof. intros. unfold reached. rewrite filter_app, map_app. reflexivity. Qed.

Lemma reached_limit : forall cur level i rs,
  reached cur level (map (fun r : route => (fst r, i :: snd r)) rs) =
  if level <=? cur i then reached cur level rs else [].
Proof.
  intros cur level i rs. unfold reached. induction rs as [|r rs IH]; cbn [map filter forallb fst snd].
  - destruct (level <=? cur i); reflexivity.
  - destruct (level <=? cur i); cbn [andb] in *.
    + destruct (forallb _ (snd r)); cbn [map fst]; [f_equal|]; exact IH.
    + exact IH.
Qed.

Lemma sink_log_right : forall st level s cp mp,
  sink_log st level s cp mp = reached (current st) level (suffix (format_prefix cp ++ format_prefix mp) (routes s)).
Proof.
  intros st level s. induction s as [id| |i s IH|p1 p2 s1 IH1 s2 IH2]; intros cp mp; cbn [sink_log routes].
  - reflexivity.
  - reflexivity.
  - rewrite suffix_limit, reached_limit, IH. reflexivity.
  - rewrite suffix_app, !suffix_suffix, reached_app, IH1, IH2. cbn [format_prefix]. rewrite !app_assoc. reflexivity.
Qed.

(* nothing gets through the sink at levels above the limit *)
Inductive covers : limit -> sink -> Prop :=
| covers_root : forall s, covers RootLimit s
| covers_null : covers NullLimit NullSink
| covers_limit : forall i s, covers (Limiter i) (LimitSink i s)
| covers_dup : forall a b p1 p2 s1 s2, covers a s1 -> covers b s2 -> covers (DupLimit a b) (DupSink p1 p2 s1 s2).

Lemma covers_right : forall st level l s, covers l s -> level <= 8 -> get_level_limit st l < level ->
  forall cp mp, sink_log st level s cp mp = [].
Proof.
  intros st level l s C H. induction C as [s| |i s|a b p1 p2 s1 s2 C1 IH1 C2 IH2]; cbn [get_level_limit sink_log]; intros K cp mp.
  - unfold level_all in K. lia.
  - reflexivity.
  - destruct (Z.leb_spec level (li_variable (get_impl st i))); [lia|reflexivity].
  - rewrite IH1, IH2 by lia. reflexivity.
Qed.

Fixpoint bounded (n : nat) (l : limit) : Prop :=
  match l with
  | Limiter i => (i < n)%nat
  | DupLimit a b => bounded n a /\ bounded n b
  | _ => True
  end.

Lemma bounded_mono : forall n m l, (n <= m)%nat -> bounded n l -> bounded m l.
Proof. induction l; cbn; intros; try tauto; lia. Qed.

(* a limit that is fixed has that value *)
Definition impl_ok (li : limit_impl) : Prop :=
  li_fixed li <= int_max /\ (li_fixed li <> int_max -> li_variable li = li_fixed li).
Definition store_ok (st : store) : Prop := forall i, impl_ok (get_impl st i).

Lemma later_ok : forall st st' i, store_ok st -> later st st' -> (i < length st)%nat -> impl_ok (get_impl st' i).
Proof.
  intros st st' i S [_ L] H. destruct (L i H) as [F V]. destruct (S i) as [A B]. unfold impl_ok. rewrite F.
  split; [exact A|]. intros N. rewrite V by exact N. apply B, N.
Qed.

Lemma fixed_same : forall st st' l, later st st' -> bounded (length st) l -> get_fixed_limit st' l = get_fixed_limit st l.
Proof.
  intros st st' l [_ L]. induction l as [| |i|a IHa b IHb]; cbn [bounded get_fixed_limit]; intros B; try reflexivity.
  - apply L, B.
  - destruct B. rewrite IHa, IHb by assumption. reflexivity.
Qed.

Lemma fixed_right : forall st st' l, store_ok st -> later st st' -> bounded (length st) l ->
  get_fixed_limit st' l <= int_max /\ (get_fixed_limit st' l <> int_max -> get_level_limit st' l = get_fixed_limit st' l).
Proof.
  intros st st' l S L. induction l as [| |i|a IHa b IHb]; cbn [bounded get_fixed_limit get_level_limit]; intros B.
  - unfold level_all, int_max. lia.
  - unfold level_off, int_max. lia.
  - exact (later_ok st st' i S L B).
  - destruct B as [Ba Bb]. destruct (IHa Ba) as [A1 A2]. destruct (IHb Bb) as [B1 B2]. split; [lia|]. intros N.
    rewrite A2, B2 by lia. reflexivity.
Qed.

Definition chan_ok (n : nat) (c : channel) : Prop := covers (c_limit c) (c_sink c) /\ bounded n (c_limit c).

Definition chan_routes (c : channel) : list route := suffix (format_prefix (c_prefix c)) (routes (c_sink c)).

Definition chan_map (cs : list channel) (n : nat) : option (list route) := option_map chan_routes (find_channel cs n).

Definition sorted (cs : list channel) : Prop := StronglySorted lt (map c_name cs).

Record logger_ok (st : store) (g : logger) (d : slogger) : Prop := {
  ok_sorted : sorted (l_channels g);
  ok_channels : Forall (chan_ok (length st)) (l_channels g);
  ok_own : find_channel (l_channels g) (s_own d) = Some (l_channel g);
  ok_prefix : format_prefix (l_prefix g) = s_prefix d;
  ok_name : c_name (l_channel g) = s_own d;
  ok_map : forall n, chan_map (l_channels g) n = s_map d n;
  ok_bounded : bounded (length st) (l_limit g);
  ok_fixed : l_fixed_limit g = get_fixed_limit st (l_limit g);
  ok_limit : s_matched d = true -> l_limit g = c_limit (l_channel g)
}.

Lemma find_in : forall cs n c, find_channel cs n = Some c -> In c cs /\ c_name c = n.
Proof.
  induction cs as [|c0 cs IH]; cbn [find_channel]; intros n c E; [discriminate|].
  destruct (Nat.eqb_spec (c_name c0) n) as [H|H]; [injection E as <-; split; [left; reflexivity|exact H]|].
  destruct (IH n c E). split; [right|]; assumption.
Qed.

Lemma logger_chan : forall st g d, logger_ok st g d -> chan_ok (length st) (l_channel g).
Proof.
  intros st g d O. destruct (find_in _ _ _ (ok_own _ _ _ O)) as [I _].
  exact (proj1 (Forall_forall _ _) (ok_channels _ _ _ O) _ I).
Qed.

(* will_log() is about the limit *)
Lemma will_log_right : forall st st' g d level, store_ok st -> logger_ok st g d -> later st st' -> level <= 8 ->
  get_log_level_limit st' g = get_level_limit st' (l_limit g) /\
  will_log st' g level = (level <=? get_level_limit st' (l_limit g)).
Proof.
  intros st st' g d level S O L H. unfold get_log_level_limit, will_log.
  rewrite (ok_fixed _ _ _ O), <- (fixed_same st st') by (auto; apply (ok_bounded _ _ _ O)).
  destruct (fixed_right st st' (l_limit g) S L (ok_bounded _ _ _ O)) as [A B].
  destruct (Z.eqb_spec (get_fixed_limit st' (l_limit g)) int_max) as [E|E]; cbn [negb].
  - split; [reflexivity|]. rewrite E. destruct (Z.ltb_spec int_max level); [unfold int_max in *; lia|reflexivity].
  - rewrite (B E). split; [reflexivity|].
    destruct (Z.ltb_spec (get_fixed_limit st' (l_limit g)) level), (Z.leb_spec level (get_fixed_limit st' (l_limit g)));
      try lia; reflexivity.
Qed.

Lemma log_right : forall st st' g d level, store_ok st -> logger_ok st g d -> later st st' -> level <= 8 ->
  s_matched d = true -> exists rs, s_map d (s_own d) = Some rs /\ log st' g level = reached (current st') level (suffix (s_prefix d) rs).
Proof.
  intros st st' g d level S O L H M. exists (chan_routes (l_channel g)). split.
  { rewrite <- (ok_map _ _ _ O). unfold chan_map. rewrite (ok_own _ _ _ O). reflexivity. }
  unfold log, chan_routes.
  rewrite (proj2 (will_log_right st st' g d level S O L H)), suffix_suffix, <- (ok_prefix _ _ _ O), <- sink_log_right.
  destruct (Z.leb_spec level (get_level_limit st' (l_limit g))); cbn [negb]; [reflexivity|].
  rewrite (ok_limit _ _ _ O M) in *.
  rewrite (covers_right st' level _ _ (proj1 (logger_chan _ _ _ O)) H) by lia. reflexivity.
Qed.

Lemma later_refl : forall st, later st st.
Proof. intros st. split; [lia|]. auto. Qed.

Lemma later_push : forall st x, later st (st ++ [x]).
Proof.
  intros st x. split; [rewrite app_length; lia|]. intros i H. unfold get_impl. rewrite app_nth1 by exact H. auto.
Qed.

Lemma logger_later : forall st st' g d, later st st' -> logger_ok st g d -> logger_ok st' g d.
Proof.
  intros st st' g d L [Z0 C O P0 N M B F K]. constructor; auto.
  - eapply Forall_impl; [|exact C]. intros c [X Y]. split; [exact X|]. eapply bounded_mono; [apply L|exact Y].
  - eapply bounded_mono; [apply L|exact B].
  - rewrite F. symmetry. apply fixed_same; assumption.
Qed.

(* loggers that get their limit from the channel *)
Lemma new_logger_right : forall st p c cs d, sorted cs -> Forall (chan_ok (length st)) cs ->
  find_channel cs (s_own d) = Some c -> (forall n, chan_map cs n = s_map d n) -> format_prefix p = s_prefix d ->
  logger_ok st (new_logger st (c_limit c) p c cs) d.
Proof.
  intros st p c cs d Z0 C F M P. destruct (find_in _ _ _ F) as [I N].
  constructor; cbn [new_logger l_channels l_channel l_limit l_fixed_limit l_prefix]; auto.
  exact (proj2 (proj1 (Forall_forall _ _) C _ I)).
Qed.

Lemma find_map : forall (f : channel -> channel) cs n, (forall c, c_name (f c) = c_name c) ->
  find_channel (map f cs) n = option_map f (find_channel cs n).
Proof.
  intros f cs n H. induction cs as [|c cs IH]; [reflexivity|]. cbn [map find_channel]. rewrite H.
  destruct (c_name c =? n)%nat; [reflexivity|exact IH].
Qed.

Lemma sorted_map : forall (f : channel -> channel) cs, (forall c, c_name (f c) = c_name c) -> sorted cs -> sorted (map f cs).
Proof. intros f cs H S. unfold sorted. rewrite map_map, (map_ext _ c_name) by exact H. exact S. Qed.

Lemma limit_right : forall st g d fixed matches, store_ok st -> logger_ok st g d ->
  match fixed with Some l => 0 <= l <= 8 | None => True end ->
  match limit_logger st g fixed matches with
  | Ok (st', g') => store_ok st' /\ later st st' /\ length st' = S (length st) /\
    logger_ok st' g' (SLogger (s_own d) (s_prefix d)
      (fun n => if matches n then option_map (map (fun r : route => (fst r, length st :: snd r))) (s_map d n)
                else s_map d n) (matches (s_own d)))
  | Thrown => True
  | Failed => False
  end.
Proof.
  intros st g d fixed matches S O HF. unfold limit_logger.
  set (fl := match fixed with Some l => l | None => int_max end).
  set (impl := LimitImpl fl (if fl =? int_max then level_info else fl)).
  set (f := fun c : channel => if matches (c_name c)
      then Channel (c_name c) (Limiter (length st)) (c_prefix c) (LimitSink (length st) (c_sink c))
      else Channel (c_name c) (c_limit c) (c_prefix c) (c_sink c)).
  assert (FN : forall c, c_name (f c) = c_name c) by (intros c; unfold f; destruct (matches (c_name c)); reflexivity).
  destruct (existsb (fun c => matches (c_name c)) (l_channels g)); cbn [negb]; [|exact I].
  rewrite (find_map f _ _ FN), (ok_name _ _ _ O), (ok_own _ _ _ O). cbn [option_map].
  assert (IM : impl_ok impl).
  { unfold impl_ok, impl. cbn [li_fixed li_variable]. split; [unfold fl, int_max; destruct fixed; lia|].
    destruct (Z.eqb_spec fl int_max); [intros; contradiction|reflexivity]. }
  assert (GI : get_impl (st ++ [impl]) (length st) = impl).
  { unfold get_impl. rewrite app_nth2, Nat.sub_diag by lia. reflexivity. }
  split; [|split; [apply later_push|split; [rewrite app_length; cbn [length]; lia|]]].
  - intros i. unfold get_impl. destruct (Nat.lt_trichotomy i (length st)) as [H|[H|H]].
    + rewrite app_nth1 by exact H. apply S.
    + subst i. fold (get_impl (st ++ [impl]) (length st)). rewrite GI. exact IM.
    + rewrite nth_overflow; [|rewrite app_length; cbn [length]; lia]. unfold impl_ok, int_max. cbn. lia.
  - constructor; cbn [l_channels l_channel l_limit l_fixed_limit l_prefix s_own s_prefix s_map s_matched].
    + apply (sorted_map f _ FN), (ok_sorted _ _ _ O).
    + apply Forall_map. eapply Forall_impl; [|apply (ok_channels _ _ _ O)]. intros c [X Y]. unfold f, chan_ok.
      rewrite app_length. cbn [length]. destruct (matches (c_name c)); cbn [c_limit c_sink].
      * split; [constructor|cbn [bounded]; lia].
      * split; [exact X|]. eapply bounded_mono; [|exact Y]. lia.
    + rewrite (find_map f _ _ FN), (ok_own _ _ _ O). reflexivity.
    + apply (ok_prefix _ _ _ O).
    + rewrite FN. apply (ok_name _ _ _ O).
    + intros n. unfold chan_map. rewrite (find_map f _ _ FN), <- (ok_map _ _ _ O). unfold chan_map.
      destruct (find_channel (l_channels g) n) as [c|] eqn:E; cbn [option_map].
      * unfold f. rewrite (proj2 (find_in _ _ _ E)). destruct (matches n); [|reflexivity].
        unfold chan_routes. cbn [c_prefix c_sink routes]. rewrite suffix_limit. reflexivity.
      * destruct (matches n); reflexivity.
    + cbn [bounded]. rewrite app_length. cbn [length]. lia.
    + cbn [get_fixed_limit]. rewrite GI. reflexivity.
    + intros M. unfold f. rewrite (ok_name _ _ _ O), M. reflexivity.
Qed.

(* std::map *)
Lemma find_put : forall (A : Type) (m : list (nat * A)) k c n, map_find (map_put m k c) n = if (n =? k)%nat then Some c else map_find m n.
Proof.
  intros A. induction m as [|[k2 c2] m IH]; intros k c n; cbn [map_put map_find].
  - reflexivity.
  - destruct (Nat.eqb_spec k k2) as [->|H]; cbn [map_find].
    + destruct (n =? k2)%nat; reflexivity.
    + destruct (k <? k2)%nat; cbn [map_find].
      * reflexivity.
      * rewrite IH. destruct (Nat.eqb_spec n k2), (Nat.eqb_spec n k); subst; try reflexivity. congruence.
Qed.

Lemma put_all : forall (A : Type) (P : A -> Prop) m k c, Forall (fun e => P (snd e)) m -> P c ->
  Forall (fun e => P (snd e)) (map_put m k c).
Proof.
  intros A P m k c. induction m as [|[k2 c2] m IH]; cbn [map_put]; intros F H.
  - constructor; [exact H|constructor].
  - inversion_clear F. destruct (k =? k2)%nat; [constructor; assumption|].
    destruct (k <? k2)%nat; [constructor; [exact H|constructor; assumption]|].
    constructor; [assumption|]. apply IH; assumption.
Qed.

Definition target_routes (t : target) : list route := suffix (format_prefix (fst t)) (chan_routes (snd t)).
Definition map_routes (m : list (nat * target)) (n : nat) : option (list route) := option_map target_routes (map_find m n).
Definition target_ok (n : nat) (t : target) : Prop := chan_ok n (snd t).

(* the rules *)
Definition loggers_ok (st : store) (gs : list logger) (ds : list slogger) : Prop := Forall2 (logger_ok st) gs ds.

Lemma loggers_nth : forall st gs ds k g, loggers_ok st gs ds -> nth_error gs k = Some g ->
  exists d, nth_error ds k = Some d /\ logger_ok st g d.
Proof.
  intros st gs ds k g F. revert k. induction F as [|g0 d0 gs ds H F IH]; intros [|k] E; cbn in *; try discriminate.
  - injection E as <-. exists d0. auto.
  - apply IH, E.
Qed.

Lemma resolve_right : forall st gs ds rules, loggers_ok st gs ds ->
  match resolve gs rules with
  | Ok rs => Forall (fun e => target_ok (length st) (snd e)) rs /\
    forall m sm, (forall n, map_routes m n = sm n) ->
      forall n, map_routes (fold_left (fun m e => map_put m (fst e) (snd e)) rs m) n = s_rules ds sm rules n
  | Thrown => True
  | Failed => False
  end.
Proof.
  intros st gs ds rules L. induction rules as [|[name [k tc]] rules IH]; cbn [resolve].
  - split; [constructor|]. intros m sm H. exact H.
  - destruct (nth_error gs k) as [g|] eqn:E; [|exact I].
    destruct (loggers_nth _ _ _ _ _ L E) as (d & D & O).
    destruct (match tc with None => Some (l_channel g) | Some t => find_channel (l_channels g) t end) as [c|] eqn:T; [|exact I].
    assert (X : chan_ok (length st) c /\ s_target ds k tc = target_routes (l_prefix g, c)).
    { unfold s_target. rewrite D, <- (ok_map _ _ _ O). unfold chan_map, target_routes.
      cbn [fst snd]. rewrite (ok_prefix _ _ _ O). destruct tc as [t|].
      - rewrite T. split; [|reflexivity]. destruct (find_in _ _ _ T) as [I _].
        exact (proj1 (Forall_forall _ _) (ok_channels _ _ _ O) _ I).
      - injection T as <-. rewrite (ok_own _ _ _ O). split; [exact (logger_chan _ _ _ O)|reflexivity]. }
    destruct X as [X1 X2]. destruct (resolve gs rules) as [rs| |]; cbn [bind]; [|exact I|exact IH].
    destruct IH as [F IH]. split; [constructor; [exact X1|exact F]|]. intros m sm H n.
    unfold s_rules. cbn [fold_left fst snd]. apply (IH (map_put m name (l_prefix g, c))).
    intros n'. unfold map_routes, override. rewrite find_put. rewrite X2. destruct (n' =? name)%nat; [reflexivity|apply H].
Qed.

Lemma rules_chan_ok : forall n rs m, Forall (fun e : nat * target => target_ok n (snd e)) rs ->
  Forall (fun e => target_ok n (snd e)) m ->
  Forall (fun e => target_ok n (snd e)) (fold_left (fun m e => map_put m (fst e) (snd e)) rs m).
Proof.
  intros n rs. induction rs as [|e rs IH]; intros m F H; cbn [fold_left]; [exact H|]. inversion_clear F.
  apply IH; [assumption|]. apply (put_all _ (target_ok n)); assumption.
Qed.

Lemma map_find_in : forall (A : Type) (P : A -> Prop) m k c, Forall (fun e : nat * A => P (snd e)) m ->
  map_find m k = Some c -> P c.
Proof.
  intros A P m k c. induction m as [|[k2 c2] m IH]; cbn [map_find]; intros F E; [discriminate|]. inversion_clear F.
  destruct (k =? k2)%nat; [injection E as <-; assumption|auto].
Qed.

Lemma dup_right : forall st g d ds rules rs, logger_ok st g d ->
  Forall (fun e => target_ok (length st) (snd e)) rs ->
  (forall m sm, (forall n, map_routes m n = sm n) ->
    forall n, map_routes (fold_left (fun m e => map_put m (fst e) (snd e)) rs m) n = s_rules ds sm rules n) ->
  match dup_logger st g rs with
  | Ok g' => logger_ok st g' (SLogger (s_own d) []
      (fun n => match s_rules ds (fun _ => None) rules n with
                | Some rs => option_map (fun rs0 => suffix (s_prefix d) rs0 ++ rs) (s_map d n)
                | None => option_map (suffix (s_prefix d)) (s_map d n)
                end) true)
  | Thrown => True
  | Failed => False
  end.
Proof.
  intros st g d ds rules rs O F R. unfold dup_logger.
  destruct (forallb _ rs); cbn [negb]; [|exact I].
  set (mp := fold_left (fun m e => map_put m (fst e) (snd e)) rs []).
  assert (MR : forall n, map_routes mp n = s_rules ds (fun _ => None) rules n) by (apply R; reflexivity).
  assert (MF : Forall (fun e => target_ok (length st) (snd e)) mp) by (apply rules_chan_ok; [exact F|constructor]).
  set (f := fun c : channel =>
        let prefix_1 := combine (l_prefix g) (c_prefix c) in
        match map_find mp (c_name c) with
        | None => Channel (c_name c) (c_limit c) prefix_1 (c_sink c)
        | Some (target_prefix, target) =>
          let prefix_2 := combine target_prefix (c_prefix target) in
          Channel (c_name c) (DupLimit (c_limit c) (c_limit target)) NullPrefix
            (DupSink prefix_1 prefix_2 (c_sink c) (c_sink target))
        end).
  assert (FN : forall c, c_name (f c) = c_name c).
  { intros c. unfold f. destruct (map_find mp (c_name c)) as [[tp t]|]; reflexivity. }
  rewrite (find_map f _ _ FN), (ok_name _ _ _ O), (ok_own _ _ _ O). cbn [option_map].
  apply new_logger_right; cbn [s_own s_map s_prefix].
  - apply (sorted_map f _ FN), (ok_sorted _ _ _ O).
  - apply Forall_map. eapply Forall_impl; [|apply (ok_channels _ _ _ O)]. intros c [X Y]. unfold f.
    destruct (map_find mp (c_name c)) as [[tp t]|] eqn:E; [|split; assumption].
    destruct (map_find_in _ (target_ok (length st)) _ _ _ MF E) as [X2 Y2]. unfold chan_ok. cbn [c_limit c_sink bounded].
    split; [constructor; assumption|auto].
  - rewrite (find_map f _ _ FN), (ok_own _ _ _ O). reflexivity.
  - intros n. unfold chan_map. rewrite (find_map f _ _ FN), <- (ok_map _ _ _ O), <- MR. unfold chan_map, map_routes.
    destruct (find_channel (l_channels g) n) as [c|] eqn:E; cbn [option_map].
    + unfold f. rewrite (proj2 (find_in _ _ _ E)), <- (ok_prefix _ _ _ O).
      destruct (map_find mp n) as [[tp t]|]; cbn [option_map]; unfold chan_routes, target_routes, chan_routes;
        cbn [c_prefix c_sink format_prefix routes fst snd];
        rewrite ?suffix_nil, ?combine_right, ?suffix_suffix; reflexivity.
    + destruct (map_find mp n); reflexivity.
  - reflexivity.
Qed.

Definition entry_channel (entry : nat * target) : channel :=
  let '(name, (logger_prefix, c)) := entry in
  Channel name (c_limit c) (combine logger_prefix (c_prefix c)) (c_sink c).

Lemma find_entries : forall m n,
  find_channel (map entry_channel m) n = option_map (fun c => entry_channel (n, c)) (map_find m n).
Proof.
  induction m as [|[k [p c]] m IH]; intros n; [reflexivity|]. cbn [map find_channel map_find entry_channel c_name fst snd].
  rewrite (Nat.eqb_sym n k). destruct (Nat.eqb_spec k n) as [->|_]; [reflexivity|apply IH].
Qed.

Lemma put_sorted : forall (A : Type) (m : list (nat * A)) k c, StronglySorted lt (map fst m) -> StronglySorted lt (map fst (map_put m k c)).
Proof.
  intros A m k c.
  assert (F : forall (P : nat -> Prop) m, Forall P (map fst m) -> P k -> Forall P (map fst (map_put m k c))).
  { intros P. induction m0 as [|[k2 c2] m0 IH]; cbn [map_put map fst]; intros H K; [constructor; [exact K|constructor]|].
    inversion_clear H. destruct (Nat.eqb_spec k k2) as [->|_]; [constructor; assumption|].
    destruct (k <? k2)%nat; cbn [map fst]; [constructor; [exact K|constructor; assumption]|].
    constructor; [assumption|]. apply IH; assumption. }
  induction m as [|[k2 c2] m IH]; cbn [map_put map fst]; intros S.
  - constructor; [exact S|constructor].
  - apply StronglySorted_inv in S. destruct S as [S1 S2]. destruct (Nat.eqb_spec k k2) as [->|N].
    + cbn [map fst]. constructor; assumption.
    + destruct (Nat.ltb_spec k k2) as [H|H]; cbn [map fst].
      * constructor; [constructor; assumption|]. constructor; [exact H|]. eapply Forall_impl; [|exact S2]. intros a. lia.
      * constructor; [apply IH, S1|]. apply F; [exact S2|lia].
Qed.

Lemma puts_sorted : forall (A B : Type) (key : A -> nat) (chan : A -> B) rs m, StronglySorted lt (map fst m) ->
  StronglySorted lt (map fst (fold_left (fun m e => map_put m (key e) (chan e)) rs m)).
Proof.
  intros A B key chan rs. induction rs as [|e rs IH]; intros m S; cbn [fold_left]; [exact S|].
  apply IH, put_sorted, S.
Qed.

(* the first loop *)
Lemma base_map_right : forall (p : prefix) cs, sorted cs -> forall m n,
  map_find (fold_left (fun m c => map_put m (c_name c) (p, c)) cs m) n =
  match find_channel cs n with Some c => Some (p, c) | None => map_find m n end.
Proof.
  intros p. induction cs as [|c cs IH]; intros S m n; cbn [fold_left find_channel]; [reflexivity|].
  unfold sorted in S. cbn [map] in S. apply StronglySorted_inv in S. destruct S as [S1 S2].
  rewrite (IH S1), find_put, (Nat.eqb_sym n). destruct (Nat.eqb_spec (c_name c) n) as [E|E]; [|reflexivity].
  destruct (find_channel cs n) as [c'|] eqn:F; [|reflexivity]. exfalso. destruct (find_in _ _ _ F) as [I1 I2].
  rewrite Forall_forall in S2. specialize (S2 _ (in_map c_name _ _ I1)). lia.
Qed.

Lemma base_map_ok : forall n (p : prefix) cs m, Forall (chan_ok n) cs -> Forall (fun e => target_ok n (snd e)) m ->
  Forall (fun e => target_ok n (snd e)) (fold_left (fun m c => map_put m (c_name c) (p, c)) cs m).
Proof.
  intros n p cs. induction cs as [|c cs IH]; intros m F H; cbn [fold_left]; [exact H|]. inversion_clear F.
  apply IH; [assumption|]. apply (put_all _ (target_ok n)); assumption.
Qed.

Lemma rules_own : forall ds rules sm n, sm n <> None -> s_rules ds sm rules n <> None.
Proof.
  intros ds. unfold s_rules. induction rules as [|r rules IH]; intros sm n H; cbn [fold_left]; [exact H|].
  apply IH. unfold override. destruct (n =? fst r)%nat; [discriminate|exact H].
Qed.

Lemma channel_right : forall st g d ds rules rs, logger_ok st g d ->
  Forall (fun e => target_ok (length st) (snd e)) rs ->
  (forall m sm, (forall n, map_routes m n = sm n) ->
    forall n, map_routes (fold_left (fun m e => map_put m (fst e) (snd e)) rs m) n = s_rules ds sm rules n) ->
  match channel_logger st g rs with
  | Ok g' => logger_ok st g' (SLogger (s_own d) []
      (s_rules ds (fun n => option_map (suffix (s_prefix d)) (s_map d n)) rules) true)
  | Thrown => False
  | Failed => False
  end.
Proof.
  intros st g d ds rules rs O F R. unfold channel_logger.
  set (m0 := fold_left (fun m c => map_put m (c_name c) (l_prefix g, c)) (l_channels g) []).
  set (mp := fold_left (fun m e => map_put m (fst e) (snd e)) rs m0).
  assert (M0 : forall n, map_routes m0 n = option_map (suffix (s_prefix d)) (s_map d n)).
  { intros n. unfold map_routes, m0. rewrite (base_map_right _ _ (ok_sorted _ _ _ O)), <- (ok_map _ _ _ O), <- (ok_prefix _ _ _ O).
    unfold chan_map. destruct (find_channel (l_channels g) n); reflexivity. }
  assert (MR : forall n, map_routes mp n = s_rules ds (fun n => option_map (suffix (s_prefix d)) (s_map d n)) rules n) by (apply R; exact M0).
  assert (MF : Forall (fun e => target_ok (length st) (snd e)) mp).
  { apply rules_chan_ok; [exact F|]. apply base_map_ok; [apply (ok_channels _ _ _ O)|constructor]. }
  assert (MS : StronglySorted lt (map fst mp)).
  { apply puts_sorted, puts_sorted. constructor. }
  change (map (fun entry : nat * target => _) mp) with (map entry_channel mp).
  rewrite (ok_name _ _ _ O), find_entries. pose proof (MR (s_own d)) as OWN. unfold map_routes in OWN.
  destruct (map_find mp (s_own d)) as [c|] eqn:E; cbn [option_map] in *.
  - apply new_logger_right; cbn [s_own s_map s_prefix].
    + unfold sorted. rewrite map_map, (map_ext _ fst); [exact MS|]. intros [k [p t]]. reflexivity.
    + apply Forall_map. eapply Forall_impl; [|exact MF]. intros [k [p t]] H. exact H.
    + rewrite find_entries, E. reflexivity.
    + intros n. rewrite <- MR. unfold chan_map, map_routes. rewrite find_entries.
      destruct (map_find mp n) as [[p t]|]; cbn [option_map entry_channel]; [|reflexivity].
      unfold target_routes, chan_routes. cbn [c_prefix c_sink fst snd]. rewrite combine_right, suffix_suffix. reflexivity.
    + reflexivity.
  - symmetry in OWN. revert OWN. apply rules_own. rewrite <- (ok_map _ _ _ O). unfold chan_map.
    rewrite (ok_own _ _ _ O). discriminate.
Qed.

Lemma nth_of : forall (A : Type) (l : list A) k x dflt, nth_error l k = Some x -> nth k l dflt = x.
Proof. intros A l k x dflt E. revert k E.
  induction l as [|y l IH]; intros [|k] E; cbn in *; try discriminate; [congruence|auto]. Qed.

Lemma single_right : forall st l p s own_routes, covers l s -> bounded (length st) l ->
  suffix (format_prefix p) (routes s) = own_routes ->
  logger_ok st (new_logger st l NullPrefix (Channel 0 l p s) [Channel 0 l p s])
    (SLogger 0 [] (override (fun _ => None) 0 own_routes) true).
Proof.
  intros st l p s rs C B R. apply (new_logger_right st NullPrefix (Channel 0 l p s)).
  - repeat constructor.
  - constructor; [split; assumption|constructor].
  - reflexivity.
  - intros n. unfold chan_map, override. cbn [find_channel c_name s_map]. rewrite Nat.eqb_sym.
    destruct (n =? 0)%nat; cbn [option_map]; [rewrite <- R|]; reflexivity.
  - reflexivity.
Qed.

Lemma construct_right : forall st gs ds c, store_ok st -> loggers_ok st gs ds -> command_ok c ->
  match construct st gs c with
  | Ok (st', g) => store_ok st' /\ later st st' /\
      length st' = (if is_limit c then S (length st) else length st) /\ logger_ok st' g (s_construct (length st) ds c)
  | Thrown => True
  | Failed => False
  end.
Proof.
  intros st gs ds c S L K. destruct c as [id| |k|k text|k name|k|k fixed matches|k rules|k rules];
    cbn [construct s_construct is_limit]; unfold with_base.
  - split; [exact S|]. split; [apply later_refl|]. split; [reflexivity|].
    apply single_right; [constructor|exact I|reflexivity].
  - split; [exact S|]. split; [apply later_refl|]. split; [reflexivity|].
    apply single_right; [constructor|exact I|reflexivity].
  - destruct (nth_error gs k) as [g|] eqn:E; [|exact I]. destruct (loggers_nth _ _ _ _ _ L E) as (d & D & O).
    rewrite (nth_of _ _ _ _ _ D). split; [exact S|]. split; [apply later_refl|]. split; [reflexivity|].
    apply new_logger_right; apply O.
  - destruct (nth_error gs k) as [g|] eqn:E; [|exact I]. destruct (loggers_nth _ _ _ _ _ L E) as (d & D & O).
    rewrite (nth_of _ _ _ _ _ D). split; [exact S|]. split; [apply later_refl|]. split; [reflexivity|].
    apply new_logger_right; try apply O. cbn [format_prefix s_prefix]. rewrite (ok_prefix _ _ _ O). reflexivity.
  - destruct (nth_error gs k) as [g|] eqn:E; [|exact I]. destruct (loggers_nth _ _ _ _ _ L E) as (d & D & O).
    rewrite (nth_of _ _ _ _ _ D). unfold select_logger.
    destruct (find_channel (l_channels g) name) as [c|] eqn:F; cbn [bind]; [|exact I].
    split; [exact S|]. split; [apply later_refl|]. split; [reflexivity|].
    apply new_logger_right; [apply O|apply O|exact F|apply O|apply O].
  - destruct (nth_error gs k) as [g|] eqn:E; [|exact I]. destruct (loggers_nth _ _ _ _ _ L E) as (d & D & O).
    split; [exact S|]. split; [apply later_refl|]. split; [reflexivity|]. unfold jail_logger, s_target.
    rewrite D, <- (ok_map _ _ _ O). unfold chan_map. rewrite (ok_own _ _ _ O). cbn [option_map].
    destruct (logger_chan _ _ _ O) as [X Y]. apply single_right; [exact X|exact Y|].
    rewrite simplified_right, <- (ok_prefix _ _ _ O). unfold chan_routes. rewrite suffix_suffix. reflexivity.
  - destruct (nth_error gs k) as [g|] eqn:E; [|exact I]. destruct (loggers_nth _ _ _ _ _ L E) as (d & D & O).
    rewrite (nth_of _ _ _ _ _ D). cbn [command_ok] in K.
    pose proof (limit_right st g d fixed matches S O) as H.
    destruct (limit_logger st g fixed matches) as [[st' g']| |]; [|exact I|apply H; destruct fixed; auto].
    apply H. destruct fixed; auto.
  - destruct (nth_error gs k) as [g|] eqn:E; [|exact I]. destruct (loggers_nth _ _ _ _ _ L E) as (d & D & O).
    rewrite (nth_of _ _ _ _ _ D). pose proof (resolve_right st gs ds rules L) as H.
    destruct (resolve gs rules) as [rs| |]; cbn [bind]; [|exact I|exact H]. destruct H as [F R].
    pose proof (dup_right st g d ds rules rs O F R) as H.
    destruct (dup_logger st g rs) as [g'| |]; cbn [bind]; [|exact I|exact H].
    split; [exact S|]. split; [apply later_refl|]. split; [reflexivity|exact H].
  - destruct (nth_error gs k) as [g|] eqn:E; [|exact I]. destruct (loggers_nth _ _ _ _ _ L E) as (d & D & O).
    rewrite (nth_of _ _ _ _ _ D). pose proof (resolve_right st gs ds rules L) as H.
    destruct (resolve gs rules) as [rs| |]; cbn [bind]; [|exact I|exact H]. destruct H as [F R].
    pose proof (channel_right st g d ds rules rs O F R) as H.
    destruct (channel_logger st g rs) as [g'| |]; cbn [bind]; [|exact I|exact H].
    split; [exact S|]. split; [apply later_refl|]. split; [reflexivity|exact H].
Qed.

Lemma run_right : forall cs st gs ds, store_ok st -> loggers_ok st gs ds -> Forall command_ok cs ->
  match run st gs cs with
  | Ok (st', gs') => store_ok st' /\ loggers_ok st' gs' (s_run (length st) ds cs)
  | Thrown => True
  | Failed => False
  end.
Proof.
  induction cs as [|c cs IH]; intros st gs ds S L K; cbn [run s_run]; [auto|].
  inversion_clear K as [|? ? K1 K2]. pose proof (construct_right st gs ds c S L K1) as H.
  destruct (construct st gs c) as [[st1 g]| |]; cbn [bind fst snd]; [|exact I|exact H].
  destruct H as (S1 & L1 & N & O). rewrite <- N. apply IH; [exact S1| |exact K2].
  apply Forall2_app; [|constructor; [exact O|constructor]].
  unfold loggers_ok in L. clear - L L1. induction L; constructor; [eapply logger_later; eassumption|assumption].
Qed.
