(* Properties of the primitive text file implementation with Windows newlines. *)
From Coq Require Import List Arith Bool Lia.
From Verif Require Import ArrLib NewlineModel NewlineSpec WinFileModel WinFileSpec WinFileProofs.
Import ListNotations.

(* C102: Whatever is done with a text file, for as long as it is allowed, and whichever operations
   on the underlying file fail, no assertion fails, and every operation does what it must do. *)
Theorem win_file_conforms : forall e f buffer os,
  conforms (View Neutral (content f) (position f) 0) os (exec_all e (init f buffer) os).
Proof. intros e f buffer os. apply exec_all_ok, rel_neutral. Qed.
Print Assumptions win_file_conforms.

(* C102: An operation fails only if an operation on the underlying file fails. *)
Theorem win_file_reliable : forall e f buffer os r c, (forall n, fails e n = false) ->
  In (Some (r, c)) (exec_all e (init f buffer) os) -> r <> ResFailed /\ forall n, r <> ResWriteFailed n.
Proof.
  intros e f buffer os r c N I. apply exec_all_reliable in I; [|assumption]. split; [|intros n]; intros ->; discriminate.
Qed.
Print Assumptions win_file_reliable.

(* One byte is read at a time into a buffer of size one.  The line feed is found after three bytes
   were read.  Going back by discarding, writing, and reading again. *)
Definition slow : env := Env (fun _ => false) (fun _ => 1) (fun _ => 0).
Example win_file_example :
  exec_all slow (init (File [97; 13; 10; 98; 13] 0 0) [0])
    [OpReadAhead 3 false; OpReadAhead 3 false; OpAdvance 1; OpTellRead; OpAdvanceAll; OpTellRead; OpDiscard;
     OpWrite [120; 10; 121] 0; OpTellWrite; OpFlush; OpSeek 1; OpReadAhead 10 false; OpReadAhead 10 false; OpReadAhead 10 true] =
  let c := [97; 13; 10; 98; 13] in let d := [97; 13; 10; 120; 13; 10; 121] in
  [Some (ResRead [97], c); Some (ResRead [10], c); Some (ResDone, c); Some (ResTold 1, c); Some (ResDone, c); Some (ResTold 3, c); Some (ResDone, c);
   Some (ResWrote 3, [97; 13; 10; 120; 13; 10]); Some (ResTold 7, [97; 13; 10; 120; 13; 10]); Some (ResDone, d); Some (ResDone, d);
   Some (ResRead [10], d); Some (ResRead [120], d); Some (ResRead [10], d)].
Proof. vm_compute. reflexivity. Qed.

(* A lonesome carriage return at the end of the file *)
Example win_file_example_2 :
  exec_all slow (init (File [13] 0 0) [0]) [OpReadAhead 5 true; OpReadAhead 5 false; OpReadAhead 5 false] =
  [Some (ResRead [], [13]); Some (ResRead [13], [13]); Some (ResRead [], [13])].
Proof. vm_compute. reflexivity. Qed.

(* A failure in the middle of a write: the first two bytes arrive when flushing. *)
Definition flaky : env := Env (fun n => n =? 0) (fun _ => 1) (fun _ => 0).
Example win_file_example_3 :
  exec_all flaky (init (File [] 0 0) [0; 0]) [OpWrite [97; 98; 99] 7; OpFlush] =
  [Some (ResWriteFailed 7, [97]); Some (ResDone, [97; 98])].
Proof. vm_compute. reflexivity. Qed.

(* C103: What is documented is that when writing fails, n says how many characters were written
   (src/archon/core/text_file_impl_concept.hpp:243-246). *)
Definition write_progress : Prop := forall e f buffer data n_0 n c c',
  exec_all e (init f buffer) [OpWrite data n_0; OpFlush] = [Some (ResWriteFailed n, c); Some (ResDone, c')] ->
  c' = overlay (content f) (position f) (written (firstn n data)).

Theorem win_file_write_refuted : ~ write_progress.
Proof.
  intros H. specialize (H flaky (File [] 0 0) [0; 0] [97; 98; 99] 0 0 [97] [97; 98]).
  discriminate H. vm_compute. reflexivity.
Qed.
Print Assumptions win_file_write_refuted.

(* C103: What is true instead is that the first so and so many characters, fewer than all of them,
   are written, and that n is left untouched. *)
Theorem win_file_write_progress : forall e f buffer data n_0 n c r c',
  exec_all e (init f buffer) [OpWrite data n_0; OpFlush] = [Some (ResWriteFailed n, c); Some (r, c')] ->
  n = n_0 /\ exists k, k < length data /\
    (r = ResDone -> c' = overlay (content f) (position f) (written (firstn k data))).
Proof.
  intros e f buffer data n_0 n c r c' E. pose proof (win_file_conforms e f buffer [OpWrite data n_0; OpFlush]) as C. rewrite E in C.
  assert (L : legal (View Neutral (content f) (position f) 0) (OpWrite data n_0)) by discriminate.
  inversion C as [|? ? ? ? Q|? ? ? ? ? v1 ? _ S1 _ C1]; subst; [contradiction|]. clear C.
  inversion S1; subst. split; [reflexivity|]. exists k. split; [assumption|]. intros ->.
  inversion C1 as [|? ? ? ? Q|? ? ? ? ? v2 ? _ S2 Q2 C2]; subst; [exfalso; apply Q; discriminate|].
  inversion S2; subst. apply Q2. discriminate.
Qed.
Print Assumptions win_file_write_progress.

(* C103: As a result, a caller that goes on from where writing is said to have failed, writes
   characters twice. *)
Theorem win_file_retry_refuted : exists e f buffer data n c c',
  exec_all e (init f buffer) [OpWrite data 0; OpWrite (skipn n data) 0; OpFlush] =
    [Some (ResWriteFailed n, c); Some (ResWrote (length data - n), c'); Some (ResDone, [97; 98; 97; 98; 99])] /\ data = [97; 98; 99] /\ content f = [].
Proof.
  exists flaky, (File [] 0 0), [0; 0], [97; 98; 99], 0, [97]. eexists. split; [vm_compute; reflexivity|]. auto.
Qed.
Print Assumptions win_file_retry_refuted.
