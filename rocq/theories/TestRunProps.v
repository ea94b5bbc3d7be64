(* Theorems about the execution of tests. *)
From Coq Require Import ZArith Bool List Arith Lia Permutation Sorted.
From Verif Require Import TestRunModel TestRunSpec TestRunProofs TestRunProofs2 ArrLib.
Import ListNotations.
Open Scope nat_scope.

(* example: three tests, of which the second is nonconcurrent, and one that is disabled; the first fails *)
Definition ex_entries : list entry := [Entry [97%Z] true true true; Entry [98%Z] true true false; Entry [99%Z] false true true; Entry [100%Z] true true true].
Definition ex_res (e : exec) : result := if Nat.eqb (fst e) 0 then Result true 3 1 else Result false 5 0.
Definition no_sort (l : list entry) : list entry := l.
Definition no_shuffle (l : list exec) : list exec := l.

(* C146: each execution happens exactly once, whatever the interleaving of the threads *)
Theorem tests_executed_once : forall sort shuffle_1 shuffle_2 res schedule entries num_repetitions num_threads hw tr s ret,
  (forall l, Permutation (sort l) l) -> (forall l, Permutation (shuffle_1 l) l) -> (forall l, Permutation (shuffle_2 l) l) ->
  run_tests sort shuffle_1 shuffle_2 res schedule entries num_repetitions num_threads hw = Some (Ran tr s ret) ->
  each_once (length (to_execute entries)) num_repetitions (begun tr) /\ each_once (length (to_execute entries)) num_repetitions (ended tr).
Proof.
  intros sort s1 s2 res schedule entries reps nt hw tr s ret Hs H1 H2 E. destruct (run_tests_ok _ _ _ _ _ _ _ _ _ _ _ _ Hs H1 H2 E) as (_ & _ & _ & _ & _ & _ & _ & _ & r & tr0 & tail & <- & _ & X).
  destruct (executed_all _ _ _ _ _ _ _ X) as (B & D). rewrite (Permutation_length (Hs _)) in *. change (filter selected entries) with (to_execute entries) in *.
  assert (P : Permutation (s1 (filter (is_concur (sort (to_execute entries)) (initial_threads nt hw)) (all_execs (length (to_execute entries)) reps)) ++
    s2 (filter (fun e => negb (is_concur (sort (to_execute entries)) (initial_threads nt hw) e)) (all_execs (length (to_execute entries)) reps))) (all_execs (length (to_execute entries)) reps)).
  { rewrite H1, H2. apply filter_perm. }
  split; eapply each_once_perm; try apply all_execs_once.
  - rewrite B. now symmetry.
  - rewrite D. now symmetry.
Qed.

Example tests_executed_ex : exists s,
  run_tests no_sort no_shuffle no_shuffle ex_res [1; 0; 0; 0; 1; 0] ex_entries 2 2 8 = Some (Ran
    [ThreadBegin 1; Begin 1 (0, 1%Z); ThreadBegin 0; Begin 0 (2, 1%Z); End 0 (2, 1%Z); Begin 0 (0, 2%Z); End 0 (0, 2%Z); Begin 0 (2, 2%Z); End 1 (0, 1%Z); ThreadEnd 1;
     End 0 (2, 2%Z); Begin 0 (1, 1%Z); End 0 (1, 1%Z); Begin 0 (1, 2%Z); End 0 (1, 2%Z); ThreadEnd 0] s false).
Proof. eexists. vm_compute. reflexivity. Qed.

(* C147: nonconcurrent tests are executed alone; and each thread executes one test at a time, and there are no more threads than asked for *)
Theorem nonconcurrent_tests_alone : forall sort shuffle_1 shuffle_2 res schedule entries num_repetitions num_threads hw tr s ret,
  (forall l, Permutation (sort l) l) -> (forall l, Permutation (shuffle_1 l) l) -> (forall l, Permutation (shuffle_2 l) l) ->
  run_tests sort shuffle_1 shuffle_2 res schedule entries num_repetitions num_threads hw = Some (Ran tr s ret) ->
  (forall j k test, nth_error (sort (to_execute entries)) j = Some test -> e_concur test = false \/ num_threads = 1%Z -> (1 <= k <= num_repetitions)%Z -> alone (j, k) tr) /\
  ((1 <= num_threads)%Z -> forall ev, In ev tr -> (Z.of_nat (event_thread ev) < num_threads)%Z) /\
  (forall t, of_thread t tr = [] \/ exists l last, of_thread t tr = ThreadBegin t :: l ++ last /\ one_at_a_time t l /\ begun last = [] /\ ended last = []).
Proof.
  intros sort s1 s2 res schedule entries reps nt hw tr s ret Hs H1 H2 E. destruct (run_tests_ok _ _ _ _ _ _ _ _ _ _ _ _ Hs H1 H2 E) as (_ & _ & _ & _ & _ & _ & _ & _ & r & tr0 & tail & <- & _ & X).
  change (filter selected entries) with (to_execute entries) in *. set (tests := sort (to_execute entries)) in *. set (C := filter (is_concur tests _) _) in *. set (N := filter (fun e => negb _) _) in *.
  split; [|split].
  - intros j k test Ht Hc Hk. eapply executed_alone; [exact X|]. eapply Permutation_in; [symmetry; apply H2|]. unfold N. apply filter_In. split.
    + apply all_execs_in. split; [apply nth_error_Some; congruence|assumption].
    + unfold is_concur. cbn [fst]. rewrite Ht. destruct Hc as [-> | ->]; [reflexivity|]. unfold initial_threads. cbn. now rewrite andb_false_r.
  - intros Hn ev Hin. pose proof (final_threads_le C N (initial_threads nt hw)) as Hle. assert (Hi : initial_threads nt hw = nt) by (unfold initial_threads; destruct (Z.ltb_spec nt 1); [lia|reflexivity]).
    rewrite Hi in *. assert (Hev : event_thread ev < Z.to_nat (final_threads C N nt)); [|lia].
    destruct X as [X1 _ _ _ X5 X6]. rewrite X1 in Hin. apply in_app_iff in Hin. destruct Hin as [Hin|Hin]; [auto|]. destruct X6 as [(_ & -> & _)|(_ & i & Hi2 & -> & _)].
    + destruct (Nat.eqb_spec (Z.to_nat (final_threads C N nt)) 1) as [E1|_]; [|destruct Hin]. destruct Hin as [<-|[]]. cbn. lia.
    + apply in_app_iff in Hin. destruct Hin as [Hin|[<-|[]]]; [|exact Hi2]. apply in_flat_map in Hin. destruct Hin as (e & _ & [<-|[<-|[]]]); exact Hi2.
  - intros t. destruct X as [X1 _ _ _ X5 X6]. set (n := Z.to_nat _) in *.
    assert (Out : forall l, (forall ev, In ev l -> event_thread ev < n) -> n <= t -> of_thread t l = []).
    { intros l Hl Ht. destruct (of_thread t l) as [|ev l2] eqn:El; [reflexivity|]. assert (Hin : In ev (of_thread t l)) by (rewrite El; now left). apply of_thread_in in Hin. destruct Hin as (Hin & <-). specialize (Hl _ Hin). lia. }
    destruct X6 as [(_ & -> & _ & X6)|(_ & i & Hi & -> & _ & X6)].
    + rewrite X1, of_thread_app. destruct (Nat.lt_ge_cases t n) as [Ht|Ht].
      * right. destruct (X6 t Ht) as (l & -> & Hl). exists l, (ThreadEnd t :: of_thread t (if Nat.eqb n 1 then [ThreadEnd 0] else [])). split; [cbn; now rewrite <- app_assoc|]. split; [assumption|].
        destruct (Nat.eqb n 1); cbn; [destruct t|]; auto.
      * left. rewrite Out by assumption. destruct (Nat.eqb_spec n 1) as [E1|_]; [|reflexivity]. rewrite of_thread_one. cbn [event_thread app]. destruct (Nat.eqb_spec 0 t); [lia|reflexivity].
    + destruct (Nat.lt_ge_cases t n) as [Ht|Ht].
      * right. destruct (X6 t Ht) as (l & -> & Hl). exists l, [ThreadEnd t]. auto.
      * left. rewrite X1, of_thread_app, of_thread_pairs, Out by assumption. destruct (Nat.eqb_spec i t); [lia|reflexivity].
Qed.

Lemma one_thread tests l : filter (is_concur tests 1) l = [].
Proof. induction l as [|e l IH]; [reflexivity|]. cbn [filter]. unfold is_concur at 1. destruct (nth_error tests (fst e)); [rewrite andb_false_r|]; exact IH. Qed.

(* C148: the beginning and the end of each thread are reported once.  Missing: the case where there is one execution only, of a concurrent test *)
Theorem threads_reported_once_partial : forall sort shuffle_1 shuffle_2 res schedule entries num_repetitions num_threads hw tr s ret,
  (forall l, Permutation (sort l) l) -> (forall l, Permutation (shuffle_1 l) l) -> (forall l, Permutation (shuffle_2 l) l) ->
  run_tests sort shuffle_1 shuffle_2 res schedule entries num_repetitions num_threads hw = Some (Ran tr s ret) ->
  length (begun tr) <> 1 \/ num_threads = 1%Z \/ Exists (fun e => e_concur e = false) (to_execute entries) ->
  forall t, of_thread t tr = [] \/ thread_report t (of_thread t tr).
Proof.
  intros sort s1 s2 res schedule entries reps nt hw tr s ret Hs H1 H2 E Hyp t. pose proof (nonconcurrent_tests_alone _ _ _ _ _ _ _ _ _ _ _ _ Hs H1 H2 E) as (_ & _ & Hany).
  destruct (run_tests_ok _ _ _ _ _ _ _ _ _ _ _ _ Hs H1 H2 E) as (_ & _ & _ & _ & _ & _ & _ & _ & r & tr0 & tail & <- & _ & X).
  destruct (executed_all _ _ _ _ _ _ _ X) as (B & _). set (tests := sort (filter selected entries)) in *. set (C := filter (is_concur tests _) _) in *. set (N := filter (fun e => negb _) _) in *.
  destruct X as [X1 _ _ _ X5 X6]. set (n := Z.to_nat _) in *. destruct (Hany t) as [Hnone|Hsome]; [now left|right].
  assert (Ht : t < n \/ tail <> [] /\ ~ t < n).
  { destruct (Nat.lt_ge_cases t n) as [Ht|Ht]; [now left|]. right. split; [|lia]. intros ->. rewrite app_nil_r in X1. destruct Hsome as (l & last & Hl & _).
    assert (Hin : In (ThreadBegin t) (of_thread t (trace r))) by (rewrite Hl; now left). apply of_thread_in in Hin. rewrite X1 in Hin. destruct Hin as (Hin & _). specialize (X5 _ Hin). cbn in X5. lia. }
  destruct X6 as [(Hn & Htail & _ & X6)|(Hn & i & Hi & Htail & _ & X6)].
  - assert (Hn1 : n <> 1).
    { intros Hn1. assert (HN : N = []) by (apply Permutation_nil; rewrite <- Hn; apply H2).
      destruct Hyp as [Hl|[Hl|Hl]].
      - apply Hl. rewrite B, Hn, app_nil_r. rewrite (Permutation_length (H1 _)). unfold n, final_threads in Hn1. rewrite HN in Hn1. cbn [length Nat.eqb negb] in Hn1. rewrite andb_false_r in Hn1.
        match type of Hn1 with context [Z.ltb ?a ?b] => destruct (Z.ltb_spec a b) as [Hz|Hz] end; [lia|]. exfalso. assert (Hone : initial_threads nt hw = 1%Z) by lia.
        assert (HC : C = []).
        { unfold C. rewrite Hone. apply one_thread. }
        rewrite HC in Hz. cbn in Hz. unfold final_threads in Hn1. lia.
      - assert (HC : C = []).
        { unfold C. rewrite Hl. change (initial_threads 1 hw) with 1%Z. apply one_thread. }
        unfold n, final_threads in Hn1. rewrite HC, HN in Hn1. cbn in Hn1. rewrite Hl in Hn1. cbn in Hn1. lia.
      - apply Exists_exists in Hl. destruct Hl as (e & He & Hc). change (to_execute entries) with (filter selected entries) in He. eapply Permutation_in in He; [|symmetry; apply Hs].
        fold tests in He. apply In_nth_error in He. destruct He as (j & Hj). destruct (Z.ltb_spec reps 1) as [Hr|Hr].
        + assert (HA : all_execs (length tests) reps = []) by (unfold all_execs; now replace (Z.to_nat reps) with 0 by lia). unfold n, final_threads, C, N in Hn1. rewrite HA in Hn1. cbn in Hn1.
          pose proof (initial_threads_pos nt hw). destruct (Z.ltb_spec 0 (initial_threads nt hw)); lia.
        + assert (Hin : In (j, 1%Z) N).
          { unfold N. apply filter_In. split; [apply all_execs_in; split; [apply nth_error_Some; congruence|lia]|]. unfold is_concur. cbn [fst]. now rewrite Hj, Hc. }
          rewrite HN in Hin. destruct Hin. }
    destruct (Nat.eqb_spec n 1) as [?|_]; [contradiction|]. destruct Ht as [Ht|(Ht & _)]; [|contradiction]. rewrite X1, Htail, app_nil_r. now apply X6.
  - destruct (Nat.lt_ge_cases t n) as [Hlt|Hge]; [now apply X6|]. exfalso. destruct Hsome as (l & last & Hl & _).
    assert (Hin : In (ThreadBegin t) (of_thread t (trace r))) by (rewrite Hl; now left). apply of_thread_in in Hin. rewrite X1, Htail in Hin. destruct Hin as (Hin & _).
    apply in_app_iff in Hin. destruct Hin as [Hin|Hin]; [specialize (X5 _ Hin); cbn in X5; lia|]. apply in_app_iff in Hin. destruct Hin as [Hin|[Hin|[]]]; [|discriminate].
    apply in_flat_map in Hin. destruct Hin as (e & _ & [Hin|[Hin|[]]]); discriminate.
Qed.

(* in that case, the end of the thread is reported twice *)
Theorem threads_reported_once_refuted : exists entries schedule res tr s ret,
  run_tests no_sort no_shuffle no_shuffle res schedule entries 1 4 8 = Some (Ran tr s ret) /\ of_thread 0 tr = [ThreadBegin 0; Begin 0 (0, 1%Z); End 0 (0, 1%Z); ThreadEnd 0; ThreadEnd 0].
Proof. exists [Entry [97%Z] true true true], [0; 0], ex_res. eexists _, _, _. split; [vm_compute; reflexivity|vm_compute; reflexivity]. Qed.

(* C149: the numbers of tests and executions in the summary; and when an exception is thrown instead *)
Theorem test_counts_exact : forall sort shuffle_1 shuffle_2 res schedule entries num_repetitions num_threads hw tr s ret,
  (forall l, Permutation (sort l) l) -> (forall l, Permutation (shuffle_1 l) l) -> (forall l, Permutation (shuffle_2 l) l) ->
  run_tests sort shuffle_1 shuffle_2 res schedule entries num_repetitions num_threads hw = Some (Ran tr s ret) ->
  (0 <= num_repetitions)%Z /\ (0 <= num_threads)%Z /\ NoDup (map e_name entries) /\
  s_disabled s = length (filter (fun e => negb (e_enabled e)) entries) /\
  s_excluded s = length (filter (fun e => e_enabled e && negb (e_included e)) entries) /\
  s_selected s = length (to_execute entries) /\
  Z.of_nat (s_executions s) = (Z.of_nat (length (to_execute entries)) * num_repetitions)%Z.
Proof.
  intros sort s1 s2 res schedule entries reps nt hw tr s ret Hs H1 H2 E. destruct (run_tests_ok _ _ _ _ _ _ _ _ _ _ _ _ Hs H1 H2 E) as (R1 & R2 & R3 & R4 & R5 & R6 & R7 & _).
  rewrite (Permutation_length (Hs _)) in *. split; [assumption|]. split; [assumption|]. split; [assumption|].
  assert (L1 : length (filter (fun e => negb (e_enabled e)) entries) + length (filter e_enabled entries) = length entries).
  { clear. induction entries as [|e l IH]; [reflexivity|]. cbn. destruct (e_enabled e); cbn; lia. }
  assert (L2 : length (filter (fun e => e_enabled e && negb (e_included e)) entries) + length (filter selected entries) = length (filter e_enabled entries)).
  { clear. induction entries as [|e l IH]; [reflexivity|]. cbn [filter]. unfold selected at 1. destruct (e_enabled e), (e_included e); cbn; lia. }
  split; [lia|]. split; [lia|]. split; [assumption|]. rewrite R7. now apply all_execs_length.
Qed.

Theorem run_tests_throws : forall sort shuffle_1 shuffle_2 res schedule entries num_repetitions num_threads hw,
  (run_tests sort shuffle_1 shuffle_2 res schedule entries num_repetitions num_threads hw = Some BadArg <-> (num_repetitions < 0 \/ num_threads < 0)%Z) /\
  (run_tests sort shuffle_1 shuffle_2 res schedule entries num_repetitions num_threads hw = Some NameClash <-> (0 <= num_repetitions)%Z /\ (0 <= num_threads)%Z /\ ~ NoDup (map e_name entries)).
Proof.
  intros sort s1 s2 res schedule entries reps nt hw. unfold run_tests. pose proof (select_loop_ok entries [] [] 0 0) as Hsel. fold (select entries) in Hsel.
  destruct (Z.ltb_spec reps 0); [split; split; intros; try congruence; try discriminate; lia|]. destruct (Z.ltb_spec nt 0); [split; split; intros; try congruence; try discriminate; lia|].
  destruct (select entries) as [[[tests en] dis]|].
  - destruct Hsel as (Hd & _). match goal with |- context [obind ?a _] => destruct a as [[[C N] m]|] end; cbn [obind].
    + destruct (execute _ _ _ _ _); cbn [obind]; (split; split; intros; try discriminate; try lia; tauto).
    + split; split; intros; try discriminate; try lia; tauto.
  - split; split; intros; try discriminate; try lia; try reflexivity. split; [assumption|]. split; [assumption|]. intros Hd. apply Hsel. split; [assumption|]. intros e _ [].
Qed.

Example test_counts_ex : exists tr c,
  run_tests no_sort no_shuffle no_shuffle ex_res [1; 0; 0; 0; 1; 0] ex_entries 2 2 8 = Some (Ran tr (Summary 1 0 3 6 c) false).
Proof. eexists _, _. vm_compute. reflexivity. Qed.

(* C150: the documented order of executions.  Missing: when some tests are concurrent and some are not *)
Lemma all_execs_in_order num_tests reps : in_order (all_execs num_tests reps).
Proof.
  assert (App : forall R (a b : list exec), StronglySorted R a -> StronglySorted R b -> (forall x y, In x a -> In y b -> R x y) -> StronglySorted R (a ++ b)).
  { intros R a b Ha Hb Hab. induction Ha as [|x a Ha IH Hx]; [assumption|]. cbn. constructor.
    - apply IH. intros y z Hy. apply Hab. now right.
    - apply Forall_app. split; [assumption|]. apply Forall_forall. intros y Hy. apply Hab; [now left|assumption]. }
  unfold in_order, all_execs. generalize (Z.to_nat reps) as m. intros m. assert (G : forall start, StronglySorted (fun a b : exec => (snd a < snd b)%Z \/ snd a = snd b /\ fst a < fst b)
    (flat_map (fun i => map (fun j => (j, (Z.of_nat i + 1)%Z)) (seq 0 num_tests)) (seq start m)) ); [|apply G].
  induction m as [|m IH]; intros start; cbn [seq flat_map]; [constructor|]. apply App; [|apply IH|].
  - clear IH. generalize 0 as first. induction num_tests as [|k IHk]; intros first; cbn [seq map]; constructor; [apply IHk|]. apply Forall_forall. intros x Hx.
    apply in_map_iff in Hx. destruct Hx as (j & <- & Hj). apply in_seq in Hj. right. cbn. lia.
  - intros x y Hx Hy. left. apply in_map_iff in Hx. destruct Hx as (j & <- & _). apply in_flat_map in Hy. destruct Hy as (i & Hi & Hy). apply in_seq in Hi.
    apply in_map_iff in Hy. destruct Hy as (j2 & <- & _). cbn. lia.
Qed.
Lemma filter_in_order p l : in_order l -> in_order (filter p l).
Proof.
  induction 1 as [|x l H IH Hx]; [constructor|]. cbn. destruct (p x); [|assumption]. constructor; [assumption|]. apply Forall_forall. intros y Hy. apply filter_In in Hy.
  rewrite Forall_forall in Hx. now apply Hx.
Qed.
Lemma filter_none {A} (p : A -> bool) l : (forall x, In x l -> p x = false) -> filter p l = [].
Proof. induction l as [|x l IH]; intros H; [reflexivity|]. cbn. rewrite H by now left. apply IH. intros y Hy. apply H. now right. Qed.

Lemma uniform_cases sort entries nt hw reps : (forall l, Permutation (sort l) l) -> uniform entries nt ->
  let tests := sort (to_execute entries) in
  filter (is_concur tests (initial_threads nt hw)) (all_execs (length tests) reps) = [] \/
  filter (fun e => negb (is_concur tests (initial_threads nt hw) e)) (all_execs (length tests) reps) = [].
Proof.
  intros Hs U tests. unfold uniform in U. rewrite !Forall_forall in U.
  assert (Hj : forall e, In e (all_execs (length tests) reps) -> exists t, nth_error tests (fst e) = Some t /\ In t (to_execute entries)).
  { intros [j k] He. apply all_execs_in in He. cbn [fst]. destruct (nth_error tests j) as [t|] eqn:Ej; [|apply nth_error_None in Ej; lia].
    exists t. split; [reflexivity|]. eapply Permutation_in; [apply Hs|]. eapply nth_error_In. exact Ej. }
  destruct (Z.ltb 1 (initial_threads nt hw)) eqn:Ei.
  - destruct U as [U|[U|U]].
    + right. apply filter_none. intros e He. destruct (Hj e He) as (t & Et & Ht). unfold is_concur. now rewrite Et, (U t Ht), Ei.
    + left. apply filter_none. intros e He. destruct (Hj e He) as (t & Et & Ht). unfold is_concur. now rewrite Et, (U t Ht).
    + subst nt. discriminate Ei.
  - left. apply filter_none. intros e He. destruct (Hj e He) as (t & Et & Ht). unfold is_concur. now rewrite Et, Ei, andb_false_r.
Qed.

Theorem executions_in_order_partial : forall sort res schedule entries num_repetitions num_threads hw tr s ret,
  (forall l, Permutation (sort l) l) ->
  run_tests sort no_shuffle no_shuffle res schedule entries num_repetitions num_threads hw = Some (Ran tr s ret) ->
  (uniform entries num_threads -> in_order (begun tr)) /\
  exists first second, begun tr = first ++ second /\ in_order first /\ in_order second /\
    (forall e, In e first -> exists test, nth_error (sort (to_execute entries)) (fst e) = Some test /\ e_concur test = true) /\
    (num_threads <> 1%Z -> (1 < hw)%Z -> forall e, In e second -> exists test, nth_error (sort (to_execute entries)) (fst e) = Some test /\ e_concur test = false).
Proof.
  intros sort res schedule entries reps nt hw tr s ret Hs E.
  assert (Hid : forall l, Permutation (no_shuffle l) l) by reflexivity.
  destruct (run_tests_ok _ _ _ _ _ _ _ _ _ _ _ _ Hs Hid Hid E) as (_ & Hnt & _ & _ & _ & _ & _ & _ & r & tr0 & tail & <- & _ & X).
  destruct (executed_all _ _ _ _ _ _ _ X) as (B & _). unfold no_shuffle in B. change (filter selected entries) with (to_execute entries) in *. rewrite B.
  split.
  - intros U. destruct (uniform_cases sort entries nt hw reps Hs U) as [Hc|Hc]; rewrite Hc; rewrite ?app_nil_r; cbn [app]; apply filter_in_order, all_execs_in_order.
  - eexists _, _. split; [reflexivity|]. split; [apply filter_in_order, all_execs_in_order|]. split; [apply filter_in_order, all_execs_in_order|]. split.
    + intros e He. apply filter_In in He. destruct He as (_ & He). unfold is_concur in He. destruct (nth_error _ _) as [t|]; [|discriminate]. exists t. split; [reflexivity|]. now apply andb_true_iff in He.
    + intros Hn1 Hhw [j k] He. apply filter_In in He. destruct He as (Hin & He). apply all_execs_in in Hin. unfold is_concur in He. cbn [fst] in *.
      destruct (nth_error (sort (to_execute entries)) j) as [t|] eqn:Ej; [|apply nth_error_None in Ej; lia]. exists t. split; [reflexivity|].
      assert (Hi : Z.ltb 1 (initial_threads nt hw) = true).
      { apply Z.ltb_lt. unfold initial_threads. destruct (Z.ltb_spec nt 1); [|lia]. destruct (Z.ltb_spec 0 hw); [|lia]. destruct (Z.leb_spec hw (2 ^ 31 - 1)); lia. }
      rewrite Hi, andb_true_r in He. now apply negb_true_iff in He.
Qed.

(* with the tests A, which is nonconcurrent, and B, C, which are concurrent, B and C begin before A *)
Theorem executions_in_order_refuted : exists entries schedule res tr s ret,
  run_tests no_sort no_shuffle no_shuffle res schedule entries 1 2 8 = Some (Ran tr s ret) /\ begun tr = [(1, 1%Z); (2, 1%Z); (0, 1%Z)] /\ ~ in_order (begun tr).
Proof.
  exists [Entry [97%Z] true true false; Entry [98%Z] true true true; Entry [99%Z] true true true], [0; 1; 0; 1], ex_res. eexists _, _, _. split; [vm_compute; reflexivity|]. split; [vm_compute; reflexivity|].
  intros H. unfold in_order in H. vm_compute in H. inversion H as [|? ? _ F]. inversion F as [|? ? _ F2]. inversion F2 as [|? ? [X|[_ X]] _]; [discriminate X|].
  exfalso. revert X. clear. intros X. inversion X.
Qed.

(* C151: the result.  Missing: when some tests are concurrent and some are not *)
Lemma sum_zero res l : (0 <= sum (fun e => if r_failed (res e) then 1 else 0)%Z l)%Z /\
  (sum (fun e => if r_failed (res e) then 1 else 0)%Z l = 0%Z <-> forall e, In e l -> r_failed (res e) = false).
Proof.
  induction l as [|e l (IH1 & IH2)]; [cbn; split; [lia|]; split; [intros _ x []|reflexivity]|]. cbn [sum fold_right]. fold (sum (fun e => if r_failed (res e) then 1 else 0)%Z l).
  split; [destruct (r_failed (res e)); lia|]. split.
  - intros H x [<-|Hx]; [destruct (r_failed (res e)); [lia|reflexivity]|]. apply IH2; [|assumption]. destruct (r_failed (res e)); lia.
  - intros H. rewrite (H e) by now left. apply IH2. intros x Hx. apply H. now right.
Qed.

Theorem run_tests_result_partial : forall sort shuffle_1 shuffle_2 res schedule entries num_repetitions num_threads hw tr s ret,
  (forall l, Permutation (sort l) l) -> (forall l, Permutation (shuffle_1 l) l) -> (forall l, Permutation (shuffle_2 l) l) ->
  run_tests sort shuffle_1 shuffle_2 res schedule entries num_repetitions num_threads hw = Some (Ran tr s ret) ->
  uniform entries num_threads ->
  s_counters s = expected_counters res (begun tr) /\ (ret = true <-> forall e, In e (begun tr) -> r_failed (res e) = false).
Proof.
  intros sort s1 s2 res schedule entries reps nt hw tr s ret Hs H1 H2 E U. destruct (run_tests_ok _ _ _ _ _ _ _ _ _ _ _ _ Hs H1 H2 E) as (_ & _ & _ & _ & _ & _ & _ & -> & r & tr0 & tail & <- & Ht & X).
  assert (Hc : s_counters s = expected_counters res (begun (trace r))).
  { destruct (executed_all _ _ _ _ _ _ _ X) as (B & _). rewrite B, <- Ht. change (filter selected entries) with (to_execute entries) in *.
    destruct X as [_ _ X3 _ _ [(Hn & _ & X6 & _)|(Hn & i & _ & _ & X6 & _)]].
    - now rewrite Hn, app_nil_r.
    - destruct (uniform_cases sort entries nt hw reps Hs U) as [Hu|Hu].
      + rewrite Hu in *. assert (H10 : s1 [] = []) by (apply Permutation_nil; symmetry; apply H1). rewrite H10 in *. cbn [app].
        rewrite X6. assert (Hend : ended tr0 = []) by (apply Permutation_nil; now symmetry). replace (ended_by (fun t => negb (Nat.eqb t i)) tr0) with (@nil exec).
        * change (expected_counters res []) with cleared. apply cleared_add.
        * clear - Hend. induction tr0 as [|[t|t e|t e|t] tr IH]; cbn in *; try apply IH; try assumption; try reflexivity. discriminate.
      + exfalso. apply Hn. rewrite Hu. apply Permutation_nil. symmetry. apply H2. }
  split; [assumption|]. rewrite Z.eqb_eq, Hc. cbn [expected_counters n_failed]. apply sum_zero.
Qed.

(* in general, what some thread has counted during the concurrent tests can be lost.  At least, there are no failures where none occurred *)
Theorem run_tests_result_general : forall sort shuffle_1 shuffle_2 res schedule entries num_repetitions num_threads hw tr s ret,
  (forall l, Permutation (sort l) l) -> (forall l, Permutation (shuffle_1 l) l) -> (forall l, Permutation (shuffle_2 l) l) ->
  run_tests sort shuffle_1 shuffle_2 res schedule entries num_repetitions num_threads hw = Some (Ran tr s ret) ->
  exists counted lost t, Permutation (begun tr) (counted ++ lost) /\ s_counters s = expected_counters res counted /\
    (forall e, In e lost -> In (End t e) tr /\ exists test, nth_error (sort (to_execute entries)) (fst e) = Some test /\ e_concur test = true) /\
    (ret = true <-> forall e, In e counted -> r_failed (res e) = false).
Proof.
  intros sort s1 s2 res schedule entries reps nt hw tr s ret Hs H1 H2 E. destruct (run_tests_ok _ _ _ _ _ _ _ _ _ _ _ _ Hs H1 H2 E) as (_ & _ & _ & _ & _ & _ & _ & -> & r & tr0 & tail & <- & Ht & X).
  destruct (executed_all _ _ _ _ _ _ _ X) as (B & _). change (filter selected entries) with (to_execute entries) in *.
  destruct X as [X1 _ X3 _ _ [(Hn & _ & X6 & _)|(Hn & i & _ & _ & X6 & _)]].
  - eexists _, [], 0. rewrite app_nil_r. split; [reflexivity|]. rewrite <- Ht, B, Hn, app_nil_r. split; [exact X6|]. split; [intros e []|]. rewrite Z.eqb_eq, X6. cbn [expected_counters n_failed]. apply sum_zero.
  - set (N := filter (fun e => negb _) _) in *. set (C := filter (is_concur _ _) _) in *.
    exists (ended_by (fun t => negb (Nat.eqb t i)) tr0 ++ s2 N), (ended_by (fun t => Nat.eqb t i) tr0), i.
    assert (Hsplit : Permutation (ended tr0) (ended_by (fun t => negb (Nat.eqb t i)) tr0 ++ ended_by (fun t => Nat.eqb t i) tr0)).
    { rewrite <- (ended_by_all (fun _ => true)) by reflexivity. apply ended_by_split; intros t; destruct (Nat.eqb t i); reflexivity. }
    split; [|split; [|split]].
    + rewrite B, <- X3, Hsplit, <- !app_assoc. apply Permutation_app_head, Permutation_app_comm.
    + now rewrite <- Ht, X6, expected_app.
    + intros e He. split.
      * rewrite X1. apply in_app_iff. left. unfold ended_by in He. apply in_flat_map in He. destruct He as ([t|t e2|t e2|t] & Hin & He); try destruct He. destruct (Nat.eqb_spec t i) as [->|]; [|destruct He].
        destruct He as [<-|[]]. assumption.
      * assert (HinC : In e C). { eapply Permutation_in; [apply H1|]. eapply Permutation_in; [exact X3|]. eapply Permutation_in; [symmetry; exact Hsplit|]. apply in_app_iff. now right. }
        unfold C in HinC. apply filter_In in HinC. destruct HinC as (_ & HinC). unfold is_concur in HinC. destruct (nth_error _ _) as [t|]; [|discriminate]. exists t. split; [reflexivity|]. now apply andb_true_iff in HinC.
    + rewrite Z.eqb_eq, <- Ht, X6, <- expected_app. cbn [expected_counters n_failed]. apply sum_zero.
Qed.

(* with a concurrent test that fails, and a nonconcurrent test that does not, and at least two threads asked for, the result is always success *)
Theorem run_tests_result_refuted : exists entries res,
  (forall num_threads hw, (2 <= num_threads)%Z -> exists schedule tr s ret, run_tests no_sort no_shuffle no_shuffle res schedule entries 1 num_threads hw = Some (Ran tr s ret)) /\
  (forall num_threads hw schedule tr s ret, (2 <= num_threads)%Z -> run_tests no_sort no_shuffle no_shuffle res schedule entries 1 num_threads hw = Some (Ran tr s ret) ->
    In (0, 1%Z) (begun tr) /\ r_failed (res (0, 1%Z)) = true /\ ret = true /\ n_failed (s_counters s) = 0%Z /\ n_failed_checks (s_counters s) = 0%Z).
Proof.
  exists [Entry [97%Z] true true true; Entry [98%Z] true true false], ex_res.
  assert (Hi : forall nt hw, (2 <= nt)%Z -> initial_threads nt hw = nt) by (intros nt hw Hn; unfold initial_threads; destruct (Z.ltb_spec nt 1); [lia|reflexivity]).
  assert (Hr : forall nt, (2 <= nt)%Z -> repeat_tests [Entry [97%Z] true true true; Entry [98%Z] true true false] 1 nt = Some ([(0, 1%Z)], [(1, 1%Z)], 2)).
  { intros nt Hn. rewrite repeat_ok. change (all_execs _ 1) with [(0, 1%Z); (1, 1%Z)]. unfold is_concur. cbn [filter fst nth_error e_concur andb length].
    destruct (Z.ltb_spec 1 nt); [reflexivity|lia]. }
  assert (Hf : forall nt, (2 <= nt)%Z -> final_threads [(0, 1%Z)] [(1, 1%Z)] nt = 1%Z) by (intros nt Hn; unfold final_threads; cbn; destruct (Z.ltb_spec 1 nt); [reflexivity|lia]).
  assert (G : forall nt hw schedule, (2 <= nt)%Z -> run_tests no_sort no_shuffle no_shuffle ex_res schedule [Entry [97%Z] true true true; Entry [98%Z] true true false] 1 nt hw =
    obind (execute ex_res [(0, 1%Z)] [(1, 1%Z)] 1 schedule) (fun r => Some (Ran (trace r) (Summary 0 0 2 2 (totals r)) (Z.eqb (n_failed (totals r)) 0)))).
  { intros nt hw schedule Hn. unfold run_tests. cbn [Z.ltb Z.compare]. destruct (Z.ltb_spec nt 0); [lia|]. change (select _) with (Some ([Entry [97%Z] true true true; Entry [98%Z] true true false], 2, 0)).
    cbn [no_sort length Nat.sub]. unfold no_sort. rewrite Hi, Hr by assumption. cbn [obind]. rewrite Hf by assumption. reflexivity. }
  split.
  - intros nt hw Hn. exists [0; 0]. rewrite G by assumption. eexists _, _, _. vm_compute. reflexivity.
  - intros nt hw schedule tr s ret Hn E. rewrite G in E by assumption. destruct (execute _ _ _ _ _) as [r|] eqn:Ex; [|discriminate]. cbn [obind] in E. injection E as <- <- <-.
    destruct (execute_ok _ _ _ _ _ _ Ex ltac:(discriminate)) as (tr0 & tail & X). destruct (executed_all _ _ _ _ _ _ _ X) as (B & _). cbn [s_counters].
    destruct X as [_ _ _ _ X5 [(Hne & _)|(_ & i & Hlt & _ & X6 & _)]]; [discriminate|]. assert (i = 0) by lia. subst i.
    rewrite (ended_by_ext _ (fun _ => false)) in X6; [|intros ev Hv; specialize (X5 ev Hv); now replace (event_thread ev) with 0 by lia]. rewrite ended_by_none in X6 by reflexivity.
    rewrite X6, B. split; [now left|]. split; [reflexivity|]. vm_compute. auto.
Qed.

(* C152: threads do not wait for each other forever: until all threads have returned, each one that has not can go on as soon as it gets the mutex, and the number of times that
   the mutex is taken is bounded *)
Theorem execution_progress : forall res concur nonconcur num_threads schedule r ths,
  steps res concur nonconcur num_threads (initial num_threads) schedule = Some (r, ths) ->
  length schedule <= num_threads + length concur /\
  (forall i th, nth_error ths i = Some th -> th_place th <> Returned -> exists st, step res concur nonconcur num_threads (r, ths) i = Some st) /\
  (all_returned ths = false -> exists i th, nth_error ths i = Some th /\ th_place th <> Returned) /\
  (exists rest r', execute res concur nonconcur num_threads (schedule ++ rest) = Some r').
Proof.
  intros res C N n schedule r ths E. assert (I0 : inv res C N n (fst (initial n)) (snd (initial n))) by apply inv_initial.
  assert (I : inv res C N n r ths) by (eapply inv_steps; [exact I0|exact E]). split; [|split; [|split]].
  - pose proof (steps_measure _ _ _ _ _ _ _ _ _ I0 E) as Hm. rewrite initial_measure in Hm. lia.
  - intros i th Hi Hp. eapply can_step; eassumption.
  - apply not_all_returned.
  - destruct (completion res C N n _ r ths I (le_n _)) as (rest & r2 & ths2 & Es & Ha). exists rest. unfold execute. rewrite steps_app, E. cbn [obind]. rewrite Es. cbn [obind]. rewrite Ha.
    destruct (Nat.eqb n 1); [eauto|]. destruct (last_to_end r2); eauto.
Qed.

Example execution_progress_ex : exists r ths,
  steps ex_res [(0, 1%Z); (2, 1%Z)] [(1, 1%Z)] 2 (initial 2) [1; 1; 1] = Some (r, ths) /\ all_returned ths = false.
Proof. eexists _, _. split; [vm_compute; reflexivity|vm_compute; reflexivity]. Qed.

Print Assumptions tests_executed_once.
Print Assumptions nonconcurrent_tests_alone.
Print Assumptions threads_reported_once_partial.
Print Assumptions threads_reported_once_refuted.
Print Assumptions test_counts_exact.
Print Assumptions run_tests_throws.
Print Assumptions executions_in_order_partial.
Print Assumptions executions_in_order_refuted.
Print Assumptions run_tests_result_partial.
Print Assumptions run_tests_result_general.
Print Assumptions run_tests_result_refuted.
Print Assumptions execution_progress.
