(* What is expected of an execution of tests.  Independent of the model except for the types of events, executions, results, and counters. *)
From Coq Require Import ZArith Bool List Arith Sorted.
From Verif Require Import TestRunModel.
Import ListNotations.
Open Scope nat_scope.

(* the executions that begin, and those that end, in order *)
Definition begun (tr : list event) : list exec := flat_map (fun ev => match ev with Begin _ e => [e] | _ => [] end) tr.
Definition ended (tr : list event) : list exec := flat_map (fun ev => match ev with End _ e => [e] | _ => [] end) tr.

(* exactly the executions of the tests with index below num_tests, in each of the repetitions, and each of them once *)
Definition each_once (num_tests : nat) (num_repetitions : Z) (execs : list exec) : Prop :=
  NoDup execs /\ forall j k, In (j, k) execs <-> j < num_tests /\ (1 <= k <= num_repetitions)%Z.

(* the part of a trace that has to do with a particular thread *)
Definition event_thread (ev : event) : nat := match ev with ThreadBegin t | Begin t _ | End t _ | ThreadEnd t => t end.
Definition of_thread (t : nat) (tr : list event) : list event := filter (fun ev => Nat.eqb (event_thread ev) t) tr.

(* a sequence of executions, one at a time *)
Inductive one_at_a_time (t : nat) : list event -> Prop :=
| oaat_nil : one_at_a_time t []
| oaat_cons e tr : one_at_a_time t tr -> one_at_a_time t (Begin t e :: End t e :: tr).

(* what a thread reports: its beginning, then a sequence of executions, then its end *)
Definition thread_report (t : nat) (tr : list event) : Prop :=
  exists l, tr = ThreadBegin t :: l ++ [ThreadEnd t] /\ one_at_a_time t l.

(* nothing is in progress *)
Definition all_over (tr : list event) : Prop := forall t e, In (Begin t e) tr -> In (End t e) tr.

(* an execution during which there are no other events, and which begins when no other execution is in progress *)
Definition alone (e : exec) (tr : list event) : Prop :=
  exists before t after, tr = before ++ [Begin t e; End t e] ++ after /\ all_over before.

(* sums over executions *)
Definition sum (f : exec -> Z) (execs : list exec) : Z := fold_right (fun e n => (f e + n)%Z) 0%Z execs.
Definition expected_counters (res : exec -> result) (execs : list exec) : counters :=
  Counters (sum (fun e => if r_failed (res e) then 1 else 0)%Z execs) (sum (fun e => r_checks (res e)) execs) (sum (fun e => r_failed_checks (res e)) execs).

(* the tests that are to be executed *)
Definition to_execute (entries : list entry) : list entry := filter (fun e => e_enabled e && e_included e) entries.

(* the documented order of executions: test_config.hpp:121-131, A1 B1 C1 A2 B2 C2 ... *)
Definition in_order (execs : list exec) : Prop := Sorted.StronglySorted (fun a b => (snd a < snd b)%Z \/ snd a = snd b /\ fst a < fst b) execs.

(* there is only one kind of tests, or they are all executed by one thread *)
Definition uniform (entries : list entry) (num_threads : Z) : Prop :=
  Forall (fun e => e_concur e = true) (to_execute entries) \/ Forall (fun e => e_concur e = false) (to_execute entries) \/ num_threads = 1%Z.
