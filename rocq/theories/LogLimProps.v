(* C211 - C214: which messages reach which destinations *)
From Coq Require Import ZArith Bool List Lia Sorted.
From Verif Require Import LogLimModel LogLimSpec LogLimProofs ArrLib.
Import ListNotations.
Local Open Scope Z_scope.

Lemma run_start : forall cs st gs, Forall command_ok cs -> run [] [] cs = Ok (st, gs) ->
  store_ok st /\ loggers_ok st gs (s_run 0 [] cs).
Proof.
  intros cs st gs K E.
  assert (S : store_ok []).
  { intros i. unfold get_impl. destruct i; cbn; unfold impl_ok, int_max; cbn; lia. }
  pose proof (run_right cs [] [] [] S (Forall2_nil _) K) as H. rewrite E in H. exact H.
Qed.

(* C211, full statement: as log_routes_partial, but without the condition that s_matched d = true.  A message reaches the
   destinations of the routes of the selected channel, in order, for which all limits allow it, with the prefix of the route
   followed by that of the logger. *)
Theorem log_routes_partial : forall cs st gs st' k g d level,
  Forall command_ok cs -> run [] [] cs = Ok (st, gs) -> later st st' ->
  nth_error gs k = Some g -> nth_error (s_run 0 [] cs) k = Some d -> 0 <= level <= 8 -> s_matched d = true ->
  exists rs, s_map d (s_own d) = Some rs /\
    log st' g level = reached (fun i => li_variable (get_impl st' i)) level (suffix (s_prefix d) rs).
Proof.
  intros cs st gs st' k g d level K E L G D H M. destruct (run_start cs st gs K E) as [S O].
  destruct (loggers_nth _ _ _ _ _ O G) as (d' & D' & O'). rewrite D in D'. injection D' as <-.
  exact (log_right st st' g d level S O' L (proj2 H) M).
Qed.

(* the limit of a limiting logger applies to its own messages also when the pattern does not include its channel, although
   not to those of a copy of the logger *)
Definition unmatched_example : list command :=
  [NewStream 7; NewChannel 0 [(1%nat, (0%nat, None))]; NewLimit 1 (Some 2) (Nat.eqb 1); NewCopy 2; NewSelect 2 1].

Theorem log_routes_refuted : exists cs st gs g d rs,
  Forall command_ok cs /\ run [] [] cs = Ok (st, gs) /\
  nth_error gs 2 = Some g /\ nth_error (s_run 0 [] cs) 2 = Some d /\ s_map d (s_own d) = Some rs /\
  reached (fun i => li_variable (get_impl st i)) 4 (suffix (s_prefix d) rs) = [(7%nat, [])] /\ log st g 4 = [] /\
  exists copy, nth_error gs 3 = Some copy /\ log st copy 4 = [(7%nat, [])].
Proof.
  exists unmatched_example. do 5 eexists.
  split; [repeat constructor; cbn; lia|]. split; [vm_compute; reflexivity|]. split; [reflexivity|].
  split; [reflexivity|]. split; [reflexivity|]. split; [reflexivity|]. split; [reflexivity|].
  eexists. split; reflexivity.
Qed.

(* messages to two destinations, one of them for errors only, and both limited by a variable limit, with prefixes *)
Definition loggers_example : list command :=
  [NewStream 7; NewStream 8; NewPrefix 1 [65]; NewLimit 2 (Some 2) (fun _ => true); NewPrefix 0 [66];
   NewDup 4 [(0%nat, (3%nat, None))]; NewPrefix 5 [67]; NewLimit 6 None (fun _ => true);
   NewChannel 7 [(3%nat, (1%nat, None)); (1%nat, (7%nat, Some 0%nat))]; NewPrefix 8 [68]; NewSelect 9 1; NewJail 10;
   NewPrefix 11 [69]].

Example log_routes_case : exists st gs st',
  Forall command_ok loggers_example /\ run [] [] loggers_example = Ok (st, gs) /\ later st st' /\
  match nth_error gs 12, nth_error (s_run 0 [] loggers_example) 12 with
  | Some g, Some d =>
    s_matched d = true /\
    s_map d (s_own d) = Some [(7%nat, [66; 67; 68], [1%nat]); (8%nat, [65; 67; 68], [1%nat; 0%nat])] /\
    log st g 1 = [(7%nat, [66; 67; 68; 69]); (8%nat, [65; 67; 68; 69])] /\ log st g 4 = [(7%nat, [66; 67; 68; 69])] /\
    log st g 5 = [] /\ log st' g 5 = [(7%nat, [66; 67; 68; 69])]
  | _, _ => False
  end.
Proof.
  do 2 eexists. exists [LimitImpl 2 2; LimitImpl int_max 6].
  split; [repeat constructor; cbn; lia|]. split; [vm_compute; reflexivity|].
  split.
  { split; [cbn; lia|]. intros [|[|i]] H; cbn in H |- *; [split; [reflexivity|intros; reflexivity]| |lia].
    split; [reflexivity|]. intros N. exfalso. apply N. reflexivity. }
  vm_compute. repeat split; reflexivity.
Qed.

Lemma reached_suffix : forall cur level t rs, reached cur level (suffix t rs) = [] -> reached cur level rs = [].
Proof.
  intros cur level t. unfold reached, suffix. induction rs as [|[[id p] l] rs IH]; cbn [map filter snd]; [auto|].
  destruct (forallb _ l); cbn [map]; [discriminate|exact IH].
Qed.

(* C212.  will_log() is about the effective limit, and no message that would reach a destination is held back by it *)
Theorem log_will_log : forall cs st gs st' k g d level,
  Forall command_ok cs -> run [] [] cs = Ok (st, gs) -> later st st' ->
  nth_error gs k = Some g -> nth_error (s_run 0 [] cs) k = Some d -> 0 <= level <= 8 ->
  (will_log st' g level = true <-> level <= get_log_level_limit st' g) /\
  (s_matched d = true ->
   forall rs, s_map d (s_own d) = Some rs -> reached (fun i => li_variable (get_impl st' i)) level rs <> [] ->
     will_log st' g level = true).
Proof.
  intros cs st gs st' k g d level K E L G D H. destruct (run_start cs st gs K E) as [S O].
  destruct (loggers_nth _ _ _ _ _ O G) as (d' & D' & O'). rewrite D in D'. injection D' as <-.
  destruct (will_log_right st st' g d level S O' L (proj2 H)) as [A B]. split.
  - rewrite A, B. apply Z.leb_le.
  - intros M rs R N. destruct (log_right st st' g d level S O' L (proj2 H) M) as (rs' & R' & X).
    rewrite R in R'. injection R' as <-. unfold log in X. destruct (will_log st' g level); [reflexivity|].
    cbn [negb] in X. exfalso. apply N. symmetry in X. exact (reached_suffix _ _ _ _ X).
Qed.

Example log_will_log_case : exists st gs g, run [] [] loggers_example = Ok (st, gs) /\ nth_error gs 5 = Some g /\
  will_log st g 7 = true /\ get_log_level_limit st g = 8 /\
  exists g7, nth_error gs 7 = Some g7 /\ will_log st g7 4 = true /\ will_log st g7 5 = false /\
    get_log_level_limit st g7 = 4.
Proof.
  do 3 eexists. split; [vm_compute; reflexivity|]. split; [reflexivity|]. split; [reflexivity|]. split; [reflexivity|].
  eexists. split; [reflexivity|]. vm_compute. repeat split; reflexivity.
Qed.

(* the state of the limits after a change of one of them *)
Definition changed (st : store) (i : nat) (l : Z) (st' : store) : Prop :=
  length st' = length st /\ get_impl st' i = LimitImpl (li_fixed (get_impl st i)) l /\
  forall j, j <> i -> get_impl st' j = get_impl st j.

Lemma get_changed : forall st i x j, (i < length st)%nat ->
  get_impl (firstn i st ++ x :: skipn (S i) st) j = if (j =? i)%nat then x else get_impl st j.
Proof.
  unfold get_impl. induction st as [|y st IH]; intros i x j H; cbn [length] in H; [lia|].
  destruct i as [|i]; cbn [firstn skipn app].
  - destruct j; reflexivity.
  - destruct j as [|j]; [reflexivity|]. cbn [nth Nat.eqb]. apply IH. lia.
Qed.

(* C213, full statement: for a limit that is not fixed, set_log_level_limit() changes the limit,

     forall cs st gs i l, Forall command_ok cs -> run [] [] cs = Ok (st, gs) -> (i < length st)%nat ->
       li_fixed (get_impl st i) = int_max -> 0 <= l <= 8 ->
       exists st', set_log_level_limit st i l = Ok st' /\ changed st i l st' /\ later st st'.

   so that C211 and C212 hold with the new limit.  Proved is that the assignment in the function makes this change.  Missing
   is that it is reached: the assertion before it always fails. *)
Theorem log_set_limit_partial : forall st i l, (i < length st)%nat -> li_fixed (get_impl st i) = int_max ->
  changed st i l (store_limit st i l) /\ later st (store_limit st i l).
Proof.
  intros st i l H F. unfold store_limit.
  assert (LEN : length (firstn i st ++ LimitImpl (li_fixed (get_impl st i)) l :: skipn (S i) st) = length st).
  { rewrite app_length, firstn_length. cbn [length]. rewrite skipn_length. lia. }
  split.
  - split; [exact LEN|]. split.
    + rewrite get_changed, Nat.eqb_refl by exact H. reflexivity.
    + intros j N. rewrite get_changed by exact H. destruct (Nat.eqb_spec j i); [contradiction|reflexivity].
  - split; [lia|]. intros j J. rewrite get_changed by exact H. destruct (Nat.eqb_spec j i) as [->|N]; [|auto].
    cbn [li_fixed li_variable]. split; [reflexivity|]. intros X. contradiction.
Qed.

(* the function always fails for limits that are not fixed, and always succeeds for those that are, after which the logger
   and the sinks do not agree on what the limit is *)
Theorem log_set_limit_refuted :
  (forall st i l, li_fixed (get_impl st i) = int_max -> set_log_level_limit st i l = Failed) /\
  exists cs st gs g st', Forall command_ok cs /\ run [] [] cs = Ok (st, gs) /\ nth_error gs 1 = Some g /\
    set_log_level_limit st 0 1 = Ok st' /\ get_log_level_limit st' g = 3 /\ will_log st' g 2 = true /\
    log st' g 2 = [].
Proof.
  split.
  - intros st i l F. unfold set_log_level_limit. rewrite F, Z.eqb_refl. reflexivity.
  - exists [NewStream 7; NewLimit 0 (Some 3) (fun _ => true)]. do 4 eexists.
    split; [repeat constructor; cbn; lia|]. split; [vm_compute; reflexivity|]. split; [reflexivity|].
    split; [vm_compute; reflexivity|]. vm_compute. repeat split; reflexivity.
Qed.

Example log_set_limit_case : exists st gs, run [] [] loggers_example = Ok (st, gs) /\ length st = 2%nat /\
  li_fixed (get_impl st 1) = int_max /\ set_log_level_limit st 1 6 = Failed /\
  store_limit st 1 6 = [LimitImpl 2 2; LimitImpl int_max 6].
Proof. do 2 eexists. split; [vm_compute; reflexivity|]. repeat split; reflexivity. Qed.

(* C214.  No assertion fails when loggers are constructed, the channels of a logger are in ascending order with no two of the
   same name, and the selected channel is the one of that name. *)
Theorem log_channels : forall cs, Forall command_ok cs ->
  run [] [] cs <> Failed /\
  forall st gs, run [] [] cs = Ok (st, gs) ->
    length gs = length (s_run 0 [] cs) /\
    forall k g d, nth_error gs k = Some g -> nth_error (s_run 0 [] cs) k = Some d ->
      StronglySorted lt (map c_name (l_channels g)) /\ In (l_channel g) (l_channels g) /\
      c_name (l_channel g) = s_own d /\
      forall n, In n (map c_name (l_channels g)) <-> s_map d n <> None.
Proof.
  intros cs K. split.
  - assert (S : store_ok []).
    { intros i. unfold get_impl. destruct i; cbn; unfold impl_ok, int_max; cbn; lia. }
    pose proof (run_right cs [] [] [] S (Forall2_nil _) K) as H. intros E. rewrite E in H. exact H.
  - intros st gs E. destruct (run_start cs st gs K E) as [S O]. split.
    { unfold loggers_ok in O. clear - O. induction O; cbn [length]; congruence. }
    intros k g d G D. destruct (loggers_nth _ _ _ _ _ O G) as (d' & D' & O'). rewrite D in D'. injection D' as <-.
    split; [apply (ok_sorted _ _ _ O')|]. split; [exact (proj1 (find_in _ _ _ (ok_own _ _ _ O')))|].
    split; [apply (ok_name _ _ _ O')|]. intros n. rewrite <- (ok_map _ _ _ O'). unfold chan_map. split.
    + intros I. induction (l_channels g) as [|c l IH]; cbn [map find_channel] in *; [destruct I|].
      destruct (Nat.eqb_spec (c_name c) n) as [X|X]; [discriminate|]. apply IH. destruct I; [contradiction|assumption].
    + intros N. destruct (find_channel (l_channels g) n) as [c|] eqn:F; [|contradiction].
      destruct (find_in _ _ _ F) as [I <-]. apply in_map, I.
Qed.

Example log_channels_case : exists st gs, run [] [] loggers_example = Ok (st, gs) /\
  match nth_error gs 10, nth_error (s_run 0 [] loggers_example) 10 with
  | Some g, Some d =>
    map c_name (l_channels g) = [0; 1; 3]%nat /\ s_own d = 1%nat /\ s_map d 3%nat = Some [(8%nat, [], [])]
  | _, _ => False
  end.
Proof. do 2 eexists. split; [vm_compute; reflexivity|]. vm_compute. repeat split; reflexivity. Qed.

Print Assumptions log_routes_partial.
Print Assumptions log_routes_refuted.
Print Assumptions log_will_log.
Print Assumptions log_set_limit_partial.
Print Assumptions log_set_limit_refuted.
Print Assumptions log_channels.
