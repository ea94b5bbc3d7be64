(* More lemmas about the execution of tests. *)
From Coq Require Import ZArith Bool List Arith Lia Permutation.
From Verif Require Import TestRunModel TestRunSpec TestRunProofs ArrLib.
Import ListNotations.
Open Scope nat_scope.

Lemma begun_pairs i N : begun (flat_map (fun e => [Begin i e; End i e]) N) = N.
Proof. induction N as [|e N IH]; [reflexivity|]. cbn. f_equal. exact IH. Qed.
Lemma ended_pairs i N : ended (flat_map (fun e => [Begin i e; End i e]) N) = N.
Proof. induction N as [|e N IH]; [reflexivity|]. cbn. f_equal. exact IH. Qed.
Lemma of_thread_pairs t i N : of_thread t (flat_map (fun e => [Begin i e; End i e]) N ++ [ThreadEnd i]) =
  if Nat.eqb i t then flat_map (fun e => [Begin i e; End i e]) N ++ [ThreadEnd i] else [].
Proof.
  induction N as [|e N IH]; cbn; [now destruct (Nat.eqb i t)|]. fold (of_thread t (flat_map (fun e => [Begin i e; End i e]) N ++ [ThreadEnd i])). rewrite IH.
  destruct (Nat.eqb i t); reflexivity.
Qed.
Lemma oaat_pairs i N : one_at_a_time i (flat_map (fun e => [Begin i e; End i e]) N).
Proof. induction N as [|e N IH]; cbn; constructor; assumption. Qed.

(* the execution as a whole *)
Record executed (res : exec -> result) (C N : list exec) (n : nat) (r : root) (tr0 tail : list event) : Prop := Executed {
  ex_trace : trace r = tr0 ++ tail;
  ex_begun : begun tr0 = C;
  ex_ended : Permutation (ended tr0) C;
  ex_over : all_over tr0;
  ex_threads : forall ev, In ev tr0 -> event_thread ev < n;
  ex_rest :
    N = [] /\ tail = (if Nat.eqb n 1 then [ThreadEnd 0] else []) /\ totals r = expected_counters res C /\ (forall t, t < n -> thread_report t (of_thread t tr0)) \/
    N <> [] /\ exists i, i < n /\ tail = flat_map (fun e => [Begin i e; End i e]) N ++ [ThreadEnd i] /\
      totals r = add_counters (expected_counters res (ended_by (fun t => negb (Nat.eqb t i)) tr0)) (expected_counters res N) /\
      forall t, t < n -> thread_report t (of_thread t (trace r)) }.

Lemma execute_ok res C N n schedule r : execute res C N n schedule = Some r -> (n = 0 -> C = [] /\ N = []) ->
  exists tr0 tail, executed res C N n r tr0 tail.
Proof.
  intros E Hz. unfold execute in E. destruct (steps res C N n (initial n) schedule) as [[r0 ths]|] eqn:Es; [|discriminate]. cbn [obind] in E.
  destruct (all_returned ths) eqn:Ha; [|discriminate].
  assert (I : inv res C N n r0 ths) by (eapply inv_steps; [apply (inv_initial res C N n)|exact Es]).
  destruct (all_done res C N n r0 ths I Ha ltac:(intros H; apply Hz; assumption)) as (D1 & D2 & D3 & D4 & D5 & D6).
  assert (Cont : forall i, i < n -> last_to_end r0 = Some i -> N <> [] -> totals r0 = expected_counters res (ended_by (fun t => negb (Nat.eqb t i)) (trace r0)) ->
    executed res C N n (nonconcur_run res N r0 i) (trace r0) (flat_map (fun e => [Begin i e; End i e]) N ++ [ThreadEnd i])).
  { intros i Hi Hl Hne Ht. destruct (nonconcur_run_ok res N r0 i) as (T1 & T2). split; try assumption. right. split; [assumption|]. exists i. split; [assumption|]. split; [reflexivity|].
    split; [now rewrite T2, Ht|]. intros t Htn. destruct (D4 t Htn) as (l & Hl1 & Hl2). rewrite T1, of_thread_app, Hl1, of_thread_pairs. unfold ending. rewrite Hl.
    destruct (Nat.eqb_spec t i) as [->|Ne].
    - rewrite Nat.eqb_refl, app_nil_r. exists (l ++ flat_map (fun e => [Begin i e; End i e]) N). split; [cbn; now rewrite <- app_assoc|]. apply oaat_app; [assumption|apply oaat_pairs].
    - destruct (Nat.eqb_spec i t); [congruence|]. rewrite app_nil_r. exists l. auto. }
  assert (Rep : last_to_end r0 = None -> forall t, t < n -> thread_report t (of_thread t (trace r0))).
  { intros Hl t Ht. destruct (D4 t Ht) as (l & Hl1 & Hl2). unfold ending in Hl1. rewrite Hl in Hl1. exists l. auto. }
  destruct (Nat.eqb_spec n 1) as [En|En].
  - injection E as <-. destruct (last_to_end r0) as [i|] eqn:El.
    + destruct D6 as (Hi & Hne & Ht). assert (i = 0) by lia. subst i. exists (trace r0), (flat_map (fun e => [Begin 0 e; End 0 e]) N ++ [ThreadEnd 0]). now apply Cont.
    + destruct D6 as ([Hn|Hn] & Ht); [|lia]. subst N. exists (trace r0), [ThreadEnd 0]. destruct (nonconcur_run_ok res [] r0 0) as (T1 & T2). cbn [flat_map app] in T1. split; try assumption.
      left. split; [reflexivity|]. split; [subst n; reflexivity|]. split; [|auto]. rewrite T2, add_cleared, Ht. now apply expected_perm.
  - destruct (last_to_end r0) as [i|] eqn:El.
    + injection E as <-. destruct D6 as (Hi & Hne & Ht). eexists _, _. now apply Cont.
    + injection E as <-. destruct D6 as (Hn & Ht). exists (trace r0), []. split; try assumption; [symmetry; apply app_nil_r|]. left.
      split; [destruct Hn as [Hn|Hn]; [assumption|now apply Hz]|]. split; [now destruct (Nat.eqb_spec n 1)|]. split; [rewrite Ht; now apply expected_perm|auto].
Qed.

Lemma executed_all res C N n r tr0 tail : executed res C N n r tr0 tail -> begun (trace r) = C ++ N /\ Permutation (ended (trace r)) (C ++ N).
Proof.
  intros [E1 E2 E3 E4 E5 E6]. rewrite E1, begun_app, ended_app, E2. destruct E6 as [(-> & -> & _)|(_ & i & _ & -> & _)].
  - destruct (Nat.eqb n 1); cbn; rewrite !app_nil_r; auto.
  - rewrite begun_app, ended_app, begun_pairs, ended_pairs. cbn. rewrite !app_nil_r. split; [reflexivity|]. now apply Permutation_app_tail.
Qed.

Lemma executed_alone res C N n r tr0 tail e : executed res C N n r tr0 tail -> In e N -> alone e (trace r).
Proof.
  intros [E1 E2 E3 E4 E5 E6] Hin. destruct E6 as [(-> & _)|(_ & i & Hi & -> & _)]; [destruct Hin|].
  apply in_split in Hin. destruct Hin as (N1 & N2 & ->). rewrite E1, flat_map_app. cbn [flat_map].
  exists (tr0 ++ flat_map (fun e => [Begin i e; End i e]) N1), i, (flat_map (fun e => [Begin i e; End i e]) N2 ++ [ThreadEnd i]). split.
  - now rewrite <- !app_assoc.
  - intros t e2 H. apply in_app_iff in H. apply in_app_iff. destruct H as [H|H]; [left; now apply E4|right]. revert H. apply (oaat_over i). apply oaat_pairs.
Qed.

(* some progress can always be made until all threads have returned *)
Lemma completion res C N n : forall k r ths, inv res C N n r ths -> measure C r ths <= k ->
  exists schedule r' ths', steps res C N n (r, ths) schedule = Some (r', ths') /\ all_returned ths' = true.
Proof.
  induction k as [|k IH]; intros r ths I Hk; destruct (all_returned ths) eqn:Ha; try (exists [], r, ths; now split).
  all: destruct (not_all_returned ths Ha) as (i & th & Hi & Hp); destruct (can_step res C N n r ths i th Hi Hp) as ([r2 ths2] & Es);
    pose proof (step_measure _ _ _ _ _ _ _ _ _ I Es) as Hm.
  { lia. }
  destruct (IH r2 ths2 ltac:(eapply inv_step; eassumption) ltac:(lia)) as (s & r' & ths' & Hs & Hr). exists (i :: s), r', ths'. split; [|assumption]. cbn [steps]. now rewrite Es.
Qed.

Lemma steps_app res C N n s1 : forall st s2, steps res C N n st (s1 ++ s2) = obind (steps res C N n st s1) (fun st => steps res C N n st s2).
Proof. induction s1 as [|i s1 IH]; intros st s2; cbn [steps app]; [reflexivity|]. destruct (step _ _ _ _ _ _); cbn [obind]; auto. Qed.

Lemma initial_measure C n : measure C (fst (initial n)) (snd (initial n)) = n + length C.
Proof.
  unfold measure, initial. cbn [fst snd next]. rewrite repeat_length. replace (num_returned _) with 0; [lia|]. unfold num_returned. induction n as [|m IH]; [reflexivity|assumption].
Qed.

(* selection *)
Definition selected (e : entry) : bool := e_enabled e && e_included e.
Lemma select_loop_ok : forall entries names inc en dis,
  match select_loop entries names inc en dis with
  | Some (inc', en', dis') => NoDup (map e_name entries) /\ (forall e, In e entries -> ~ In (e_name e) names) /\
      inc' = inc ++ filter selected entries /\ en' = en + length (filter e_enabled entries) /\ dis' + length (filter e_enabled entries) = dis + length entries
  | None => ~ (NoDup (map e_name entries) /\ forall e, In e entries -> ~ In (e_name e) names)
  end.
Proof.
  induction entries as [|e entries IH]; intros names inc en dis; cbn [select_loop].
  - cbn. rewrite app_nil_r. split; [constructor|]. split; [intros e []|]. repeat split; lia.
  - destruct (in_dec (list_eq_dec Z.eq_dec) (e_name e) names) as [Hin|Hn]; [intros (_ & H); apply (H e); [now left|assumption]|].
    assert (K : (NoDup (map e_name entries) /\ forall x, In x entries -> ~ In (e_name x) (e_name e :: names)) <->
      (NoDup (map e_name (e :: entries)) /\ forall x, In x (e :: entries) -> ~ In (e_name x) names)).
    { split.
      - intros (H1 & H2). split; [cbn; constructor; [|assumption]|].
        + intros H. apply in_map_iff in H. destruct H as (x & Ex & Hx). apply (H2 x Hx). left. congruence.
        + intros x [<-|Hx]; [assumption|]. intros H. apply (H2 x Hx). now right.
      - intros (H1 & H2). inversion H1 as [|? ? H3 H4]. subst. split; [assumption|]. intros x Hx [Ex|H]; [apply H3; rewrite Ex; now apply in_map|]. apply (H2 x); [now right|assumption]. }
    destruct (e_enabled e) eqn:Ee; cbn [negb]; [destruct (e_included e) eqn:Ei; cbn [negb]|].
    + specialize (IH (e_name e :: names) (inc ++ [e]) (S en) dis). destruct (select_loop _ _ _ _ _) as [[[i2 n2] d2]|]; [|tauto].
      destruct IH as (H1 & H2 & H3 & H4 & H5). split; [tauto|]. split; [tauto|]. cbn [filter]. unfold selected at 1. rewrite Ee, Ei. cbn [andb length]. rewrite H3, <- app_assoc. repeat split; lia.
    + specialize (IH (e_name e :: names) inc (S en) dis). destruct (select_loop _ _ _ _ _) as [[[i2 n2] d2]|]; [|tauto].
      destruct IH as (H1 & H2 & H3 & H4 & H5). split; [tauto|]. split; [tauto|]. cbn [filter]. unfold selected at 1. rewrite Ee, Ei. cbn [andb length]. repeat split; [assumption|lia|lia].
    + specialize (IH (e_name e :: names) inc en (S dis)). destruct (select_loop _ _ _ _ _) as [[[i2 n2] d2]|]; [|tauto].
      destruct IH as (H1 & H2 & H3 & H4 & H5). split; [tauto|]. split; [tauto|]. cbn [filter]. unfold selected at 1. rewrite Ee. cbn [andb length]. repeat split; [assumption|lia|lia].
Qed.

(* repetition *)
Definition all_execs (num_tests : nat) (reps : Z) : list exec :=
  flat_map (fun i => map (fun j => (j, (Z.of_nat i + 1)%Z)) (seq 0 num_tests)) (seq 0 (Z.to_nat reps)).
Definition is_concur (tests : list entry) (nt : Z) (e : exec) : bool :=
  match nth_error tests (fst e) with Some t => e_concur t && Z.ltb 1 nt | None => false end.

Lemma all_execs_in num_tests reps j k : In (j, k) (all_execs num_tests reps) <-> j < num_tests /\ (1 <= k <= reps)%Z.
Proof.
  unfold all_execs. rewrite in_flat_map. split.
  - intros (i & Hi & H). apply in_map_iff in H. destruct H as (j2 & E & Hj). injection E as -> <-. apply in_seq in Hi, Hj. lia.
  - intros (Hj & Hk). exists (Z.to_nat (k - 1)). split; [apply in_seq; lia|]. apply in_map_iff. exists j. split; [f_equal; lia|apply in_seq; lia].
Qed.
Lemma all_execs_once num_tests reps : each_once num_tests reps (all_execs num_tests reps).
Proof.
  split; [|intros; apply all_execs_in]. unfold all_execs. generalize (seq_NoDup (Z.to_nat reps) 0). generalize (seq 0 (Z.to_nat reps)).
  induction l as [|i l IH]; intros Hl; [constructor|]. inversion Hl as [|? ? Hi Hl2]. subst. cbn [flat_map].
  assert (App : forall (A : Type) (a b : list A), NoDup a -> NoDup b -> (forall x, In x a -> ~ In x b) -> NoDup (a ++ b)).
  { intros A a b Ha Hb Hd. induction Ha as [|x a Hx Ha IHa]; [assumption|]. cbn. constructor.
    - intros H. apply in_app_iff in H. destruct H as [H|H]; [auto|]. apply (Hd x); [now left|assumption].
    - apply IHa. intros y Hy. apply Hd. now right. }
  apply App; [|auto|].
  - apply FinFun.Injective_map_NoDup; [|apply seq_NoDup]. intros a b E. congruence.
  - intros [j k] H1 H2. apply in_map_iff in H1. destruct H1 as (j1 & E & _). apply in_flat_map in H2. destruct H2 as (i2 & Hi2 & H2). apply in_map_iff in H2.
    destruct H2 as (j2 & E2 & _). assert (i = i2) by (apply Nat2Z.inj; injection E; injection E2; lia). congruence.
Qed.

Lemma push_ok tests nt : forall l c d m, (forall e, In e l -> fst e < length tests) ->
  fold_left (push_exec tests nt) l (Some (c, d, m)) = Some (c ++ filter (is_concur tests nt) l, d ++ filter (fun e => negb (is_concur tests nt e)) l, m + length l).
Proof.
  induction l as [|e l IH]; intros c d m H; cbn [fold_left filter length]; [now rewrite !app_nil_r, Nat.add_0_r|].
  destruct (nth_error tests (fst e)) as [t|] eqn:E; [|apply nth_error_None in E; specialize (H e (or_introl eq_refl)); lia].
  unfold push_exec at 2. cbn [obind]. rewrite E. cbn [obind]. assert (Ec : is_concur tests nt e = e_concur t && Z.ltb 1 nt) by (unfold is_concur; now rewrite E). rewrite Ec.
  assert (H' : forall x, In x l -> fst x < length tests) by (intros x Hx; apply H; now right).
  destruct (e_concur t && Z.ltb 1 nt); cbn [negb]; rewrite IH by assumption; rewrite <- app_assoc; cbn [app]; do 2 f_equal; lia.
Qed.

Lemma repeat_ok tests reps nt :
  let all := all_execs (length tests) reps in
  repeat_tests tests reps nt = Some (filter (is_concur tests nt) all, filter (fun e => negb (is_concur tests nt e)) all, length all).
Proof.
  cbv zeta. unfold repeat_tests. etransitivity; [|apply (push_ok tests nt (all_execs (length tests) reps) [] [] 0)].
  - unfold all_execs. generalize (Some ([] : list exec, [] : list exec, 0)). generalize (seq 0 (Z.to_nat reps)) as l.
    induction l as [|i l IH]; intros acc; [reflexivity|]. cbn [fold_left flat_map]. rewrite fold_left_app, IH. f_equal.
    generalize (seq 0 (length tests)) as m. intros m. revert acc. induction m as [|j m IHm]; intros acc; [reflexivity|]. cbn [fold_left map]. apply IHm.
  - intros [j k] H. apply all_execs_in in H. cbn. lia.
Qed.

Lemma all_execs_length num_tests reps : (0 <= reps)%Z -> Z.of_nat (length (all_execs num_tests reps)) = (Z.of_nat num_tests * reps)%Z.
Proof.
  intros H. unfold all_execs. assert (L : forall l : list nat, length (flat_map (fun i => map (fun j => (j, (Z.of_nat i + 1)%Z)) (seq 0 num_tests)) l) = num_tests * length l).
  { induction l as [|i l IH]; cbn [flat_map length]; [lia|]. rewrite app_length, map_length, seq_length, IH. lia. }
  rewrite L, seq_length. lia.
Qed.

Lemma filter_perm {A} (p : A -> bool) (l : list A) : Permutation (filter p l ++ filter (fun x => negb (p x)) l) l.
Proof. induction l as [|x l IH]; [reflexivity|]. cbn. destruct (p x); cbn [negb app]; [now constructor|]. symmetry. apply Permutation_cons_app. now symmetry. Qed.

Lemma each_once_perm n reps a b : Permutation a b -> each_once n reps a -> each_once n reps b.
Proof.
  intros P (H1 & H2). split; [eapply Permutation_NoDup; eassumption|]. intros j k. rewrite <- H2. split; apply Permutation_in; [now symmetry|assumption].
Qed.

(* numbers of threads *)
Lemma initial_threads_pos nt hw : (1 <= initial_threads nt hw)%Z.
Proof. unfold initial_threads. destruct (Z.ltb_spec nt 1); [|lia]. destruct (Z.ltb_spec 0 hw); [|lia]. destruct (Z.leb_spec hw (2 ^ 31 - 1)); lia. Qed.
Lemma final_threads_zero C N nt : (1 <= nt)%Z -> Z.to_nat (final_threads C N nt) = 0 -> C = [] /\ N = [].
Proof.
  intros Hn. unfold final_threads. destruct C as [|c C], N as [|e N]; cbn [length Nat.eqb andb negb]; auto.
  all: match goal with |- context [Z.ltb ?a ?b] => destruct (Z.ltb_spec a b) end; lia.
Qed.
Lemma final_threads_le C N nt : (final_threads C N nt <= nt)%Z.
Proof. unfold final_threads. match goal with |- context [Z.ltb ?a ?b] => destruct (Z.ltb_spec a b) end; lia. Qed.

(* what run_tests() does *)
Lemma run_tests_ok sort s1 s2 res schedule entries reps nt hw tr s ret :
  (forall l, Permutation (sort l) l) -> (forall l, Permutation (s1 l) l) -> (forall l, Permutation (s2 l) l) ->
  run_tests sort s1 s2 res schedule entries reps nt hw = Some (Ran tr s ret) ->
  let tests := sort (filter selected entries) in
  let all := all_execs (length tests) reps in
  let nt1 := initial_threads nt hw in
  let C := filter (is_concur tests nt1) all in
  let N := filter (fun e => negb (is_concur tests nt1 e)) all in
  let n := Z.to_nat (final_threads C N nt1) in
  (0 <= reps)%Z /\ (0 <= nt)%Z /\ NoDup (map e_name entries) /\
  s_disabled s = length entries - length (filter e_enabled entries) /\ s_excluded s = length (filter e_enabled entries) - length tests /\
  s_selected s = length tests /\ s_executions s = length all /\ ret = Z.eqb (n_failed (s_counters s)) 0 /\
  exists r tr0 tail, trace r = tr /\ totals r = s_counters s /\ executed res (s1 C) (s2 N) n r tr0 tail.
Proof.
  intros Hs H1 H2 E. cbv zeta. unfold run_tests in E. destruct (Z.ltb_spec reps 0); [discriminate|]. destruct (Z.ltb_spec nt 0); [discriminate|].
  pose proof (select_loop_ok entries [] [] 0 0) as Hsel. fold (select entries) in Hsel. destruct (select entries) as [[[tests en] dis]|]; [|discriminate].
  destruct Hsel as (S1 & _ & -> & S3 & S4). cbn [app] in E, S4. rewrite repeat_ok in E. cbn [obind] in E.
  destruct (execute _ _ _ _ _) as [r|] eqn:Ex; [|discriminate]. cbn [obind] in E. injection E as <- <- <-. cbn [s_disabled s_excluded s_selected s_executions s_counters].
  assert (Hlen : length (sort (filter selected entries)) = length (filter selected entries)) by (apply Permutation_length, Hs). rewrite Hlen in *.
  split; [assumption|]. split; [assumption|]. split; [assumption|]. split; [lia|]. split; [lia|]. split; [reflexivity|]. split; [reflexivity|]. split; [reflexivity|].
  assert (Nil : forall f : list exec -> list exec, (forall l, Permutation (f l) l) -> f [] = []) by (intros f Hf; apply Permutation_nil; symmetry; apply Hf).
  destruct (execute_ok _ _ _ _ _ _ Ex) as (tr0 & tail & X).
  - intros Hz. apply final_threads_zero in Hz; [|apply initial_threads_pos]. destruct Hz as (-> & ->). split; apply Nil; assumption.
  - exists r, tr0, tail. auto.
Qed.
