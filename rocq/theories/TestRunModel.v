(* Model of the execution of tests: TestRunner::run() of check/test_runner.cpp, ThreadContextImpl of check/noinst/thread_context_impl.hpp and
   thread_context_impl.cpp, and RootContextImpl of check/noinst/root_context_impl.hpp.

   Threads: what a thread does between taking the mutex of the root context and releasing it is one step.  The interleaving of the threads is
   given by a schedule, which is a list of the indexes of the threads in the order in which they take that mutex, to begin with, and then
   after each execution of a test (thread_context_impl.cpp:52 and 135).  Other uses of the mutex, for the reporting of failures from within
   tests, do not change the modelled state.

   Tests: a test is represented by what TestRunner::run() needs to know about it.  What happens during an execution of a test is given by a
   function, from the execution to the number of performed checks, the number of failed checks, and whether m_errors_seen was set.

   Not modelled: logging, test file directories, mapping of file paths, elapsed time, random seeds, exceptions thrown by reporters,
   abort_on_failure, and overflow of the counters.  std::stable_sort() and std::shuffle() are given as functions. *)
From Coq Require Import ZArith Bool List Arith.
From Verif Require Import ArrLib.
Import ListNotations.
Open Scope nat_scope.

(* TestList::Entry: test_list.hpp.  e_enabled is the result of is_enabled_func(), or true if there is none; e_included is the result of the
   configured filter, or true if there is none *)
Record entry := Entry { e_name : list Z; e_enabled : bool; e_included : bool; e_concur : bool }.

(* RootContextImpl::Exec: root_context_impl.hpp:51-54, test_index and repetition_no *)
Definition exec : Type := nat * Z.

(* what happens during the execution of a test *)
Record result := Result { r_failed : bool; r_checks : Z; r_failed_checks : Z }.

(* calls of reporter functions: reporter.hpp:124-183; the number is the index of the thread context *)
Inductive event :=
| ThreadBegin (t : nat)
| Begin (t : nat) (e : exec)
| End (t : nat) (e : exec)
| ThreadEnd (t : nat).

(* counters, both of ThreadContextImpl (thread_context_impl.hpp:44, 69, 70) and of RootContextImpl (root_context_impl.hpp:64-66): the number of
   failed executions, of checks, and of failed checks *)
Record counters := Counters { n_failed : Z; n_checks : Z; n_failed_checks : Z }.
(* ThreadContextImpl::clear_counters: thread_context_impl.hpp:109-114 *)
Definition cleared : counters := Counters 0 0 0.
(* the effect of an execution of a test: thread_context_impl.cpp:132-133, 174, 177 *)
Definition count_result (c : counters) (r : result) : counters :=
  Counters (n_failed c + (if r_failed r then 1 else 0)) (n_checks c + r_checks r) (n_failed_checks c + r_failed_checks r).
(* the additions of ThreadContextImpl::finalize: thread_context_impl.cpp:144-146 *)
Definition add_counters (root c : counters) : counters :=
  Counters (n_failed root + n_failed c) (n_checks root + n_checks c) (n_failed_checks root + n_failed_checks c).

(* where a thread is in ThreadContextImpl::run(): thread_context_impl.cpp:48-77.  Before it takes the mutex; inside a test; after the return *)
Inductive place := Before | Inside (e : exec) | Returned.
Record thread := Thread { th_place : place; th_counters : counters }.

(* the part of RootContextImpl that changes: root_context_impl.hpp:63-68, and the calls of reporter functions until now.  last_thread_to_end is
   None for -1 *)
Record root := Root { next : nat; totals : counters; num_ended : nat; last_to_end : option nat; trace : list event }.

Section Run.
Variables (res : exec -> result) (concur nonconcur : list exec) (num_threads : nat).

(* what a thread does with the mutex until it releases it: the head of the loop and the first half of run(exec, lock), or what follows the loop:
   thread_context_impl.cpp:57-76 and 93-113 *)
Definition with_mutex (r : root) (i : nat) (c : counters) : root * thread :=
  match nth_error concur (next r) with
  | Some e => (Root (S (next r)) (totals r) (num_ended r) (last_to_end r) (trace r ++ [Begin i e]), Thread (Inside e) c)
  | None =>
    if match nonconcur with [] => false | _ => Nat.eqb (num_threads - num_ended r) 1 end then
      (Root (next r) (totals r) (num_ended r) (Some i) (trace r), Thread Returned c)
    else
      (Root (next r) (add_counters (totals r) c) (S (num_ended r)) (last_to_end r) (trace r ++ [ThreadEnd i]), Thread Returned c)
  end.

Definition report (r : root) (ev : event) : root := Root (next r) (totals r) (num_ended r) (last_to_end r) (trace r ++ [ev]).

(* thread i takes the mutex *)
Definition step (st : root * list thread) (i : nat) : option (root * list thread) :=
  let (r, ths) := st in
  match nth_error ths i with
  | None => None
  | Some th =>
    match th_place th with
    | Before => let (r, th) := with_mutex (report r (ThreadBegin i)) i cleared in let? ths := set_nth ths i th in Some (r, ths)
    | Inside e =>
      let (r, th) := with_mutex (report r (End i e)) i (count_result (th_counters th) (res e)) in let? ths := set_nth ths i th in Some (r, ths)
    | Returned => None
    end
  end.

Fixpoint steps (st : root * list thread) (schedule : list nat) : option (root * list thread) :=
  match schedule with
  | [] => Some st
  | i :: schedule => let? st := step st i in steps st schedule
  end.

Definition initial : root * list thread := (Root 0 cleared 0 None [], repeat (Thread Before cleared) num_threads).

(* all threads can be joined: test_runner.cpp:383-386 *)
Definition all_returned (ths : list thread) : bool :=
  forallb (fun th => match th_place th with Returned => true | _ => false end) ths.

(* ThreadContextImpl::nonconcur_run: thread_context_impl.cpp:80-90 *)
Definition nonconcur_run (r : root) (i : nat) : root :=
  let (tr, c) := fold_left (fun a e => (fst a ++ [Begin i e; End i e], count_result (snd a) (res e))) nonconcur (trace r, cleared) in
  Root (next r) (add_counters (totals r) c) (num_ended r) (last_to_end r) (tr ++ [ThreadEnd i]).

(* the execution of tests: test_runner.cpp:353-391.  None if the schedule is not one where all threads return, or not one that is possible *)
Definition execute (schedule : list nat) : option root :=
  let? (r, ths) := steps initial schedule in
  if all_returned ths then
    if Nat.eqb num_threads 1 then Some (nonconcur_run r 0)
    else match last_to_end r with
         | Some i => Some (nonconcur_run r i)
         | None => Some r
         end
  else None.
End Run.

(* the selection of tests: test_runner.cpp:130-176.  The selected tests, the number of enabled tests, and the number of disabled ones; None if
   there are two tests with the same name, which causes an exception to be thrown *)
Fixpoint select_loop (entries : list entry) (names : list (list Z)) (included : list entry) (num_enabled num_disabled : nat) : option (list entry * nat * nat) :=
  match entries with
  | [] => Some (included, num_enabled, num_disabled)
  | e :: entries =>
    if in_dec (list_eq_dec Z.eq_dec) (e_name e) names then None
    else
      let names := e_name e :: names in
      if negb (e_enabled e) then select_loop entries names included num_enabled (S num_disabled)
      else
        let num_enabled := S num_enabled in
        if negb (e_included e) then select_loop entries names included num_enabled num_disabled
        else select_loop entries names (included ++ [e]) num_enabled num_disabled
  end.
Definition select (entries : list entry) : option (list entry * nat * nat) := select_loop entries [] [] 0 0.

(* the number of threads to begin with: test_runner.cpp:180-195.  hw is the result of std::thread::hardware_concurrency() *)
Definition initial_threads (num_threads hw : Z) : Z :=
  if Z.ltb num_threads 1 then
    if Z.ltb 0 hw then
      let max := (2 ^ 31 - 1)%Z in
      if Z.leb hw max then hw else max
    else 1%Z
  else num_threads.

(* the repetition: test_runner.cpp:207-220.  The concurrent executions, the others, and the number of executions *)
Definition push_exec (tests : list entry) (num_threads : Z) (acc : option (list exec * list exec * nat)) (e : exec) : option (list exec * list exec * nat) :=
  let? (concur, nonconcur, n) := acc in
  let? test := nth_error tests (fst e) in
  if e_concur test && Z.ltb 1 num_threads then Some (concur ++ [e], nonconcur, S n)
  else Some (concur, nonconcur ++ [e], S n).
Definition repeat_tests (tests : list entry) (num_repetitions : Z) (num_threads : Z) : option (list exec * list exec * nat) :=
  fold_left (fun acc i => fold_left (fun acc j => push_exec tests num_threads acc (j, (Z.of_nat i + 1)%Z)) (seq 0 (length tests)) acc)
    (seq 0 (Z.to_nat num_repetitions)) (Some ([], [], 0)).

(* the final number of threads: test_runner.cpp:223-229 *)
Definition final_threads (concur nonconcur : list exec) (num_threads : Z) : Z :=
  let max_threads := length concur in
  let max_threads := if Nat.eqb max_threads 0 && negb (Nat.eqb (length nonconcur) 0) then 1 else max_threads in
  if Z.ltb (Z.of_nat max_threads) num_threads then Z.of_nat max_threads else num_threads.

(* Summary, without elapsed_seconds: reporter.hpp:43-103 *)
Record summary := Summary { s_disabled : nat; s_excluded : nat; s_selected : nat; s_executions : nat; s_counters : counters }.

(* what comes of TestRunner::run() *)
Inductive run_result :=
| BadArg (* exceptions due to bad number of repetitions or threads *)
| NameClash (* exception due to tests with the same name *)
| Ran (tr : list event) (s : summary) (ret : bool).

(* TestRunner::run: test_runner.cpp:119-406.  sort is the effect of std::stable_sort(), or the identity if there is no test order; shuffle_1
   and shuffle_2 are the effects of the two calls of std::shuffle(), or the identity if shuffling is disabled *)
Definition run_tests (sort : list entry -> list entry) (shuffle_1 shuffle_2 : list exec -> list exec) (res : exec -> result) (schedule : list nat)
    (entries : list entry) (num_repetitions num_threads hw : Z) : option run_result :=
  if Z.ltb num_repetitions 0 then Some BadArg
  else if Z.ltb num_threads 0 then Some BadArg
  else
    match select entries with
    | None => Some NameClash
    | Some (tests, num_enabled, num_disabled) =>
      let num_selected := length tests in
      let num_threads := initial_threads num_threads hw in
      let tests := sort tests in
      let? (concur, nonconcur, num_executions) := repeat_tests tests num_repetitions num_threads in
      let num_threads := final_threads concur nonconcur num_threads in
      let concur := shuffle_1 concur in
      let nonconcur := shuffle_2 nonconcur in
      let? r := execute res concur nonconcur (Z.to_nat num_threads) schedule in
      Some (Ran (trace r) (Summary num_disabled (num_enabled - num_selected) num_selected num_executions (totals r)) (Z.eqb (n_failed (totals r)) 0))
    end.
