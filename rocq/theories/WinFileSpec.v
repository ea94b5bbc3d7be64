(* What a primitive text file implementation with Windows newlines must do
   (src/archon/core/text_file_impl_concept.hpp:110-322). *)
From Coq Require Import List Arith.
From Verif Require Import NewlineSpec WinFileModel.
Import ListNotations.

Inductive mode := Neutral | Reading | Writing.

(* The contents of the file, with everything that was written, also what is still buffered; the
   position of the logical file pointer in bytes; the number of characters from there to the
   read-ahead pointer *)
Record view := View { v_mode : mode; v_content : list nat; v_pos : nat; v_ahead : nat }.

(* When an operation is allowed *)
Definition legal (v : view) (o : op) : Prop :=
  match o with
  | OpAdvance n => v_mode v <> Writing /\ n <= v_ahead v
  | OpReadAhead _ _ | OpAdvanceAll | OpDiscard | OpTellRead | OpSeek _ => v_mode v <> Writing
  | OpWrite _ _ | OpFlush | OpTellWrite => v_mode v <> Reading
  end.

(* the logical file pointer is moved forward by a number of characters *)
Definition moved (v : view) (n : nat) (v' : view) : Prop :=
  exists cs, reads (skipn (v_pos v) (v_content v)) cs /\
    v' = View (v_mode v) (v_content v) (v_pos v + extent (firstn n cs)) (v_ahead v - n).

(* characters are put in at the logical file pointer *)
Definition put (v : view) (s : list nat) : view :=
  View Writing (overlay (v_content v) (v_pos v) (written s)) (v_pos v + length (written s)) 0.

(* What an operation does, and its result *)
Inductive step : view -> op -> result -> view -> Prop :=
| step_read : forall v size dynamic_eof chars cs, reads (skipn (v_pos v) (v_content v)) cs ->
    chars = map fst (firstn (length chars) (skipn (v_ahead v) cs)) -> length chars <= size ->
    (size = 0 \/ chars <> [] \/ length cs <= v_ahead v \/ (dynamic_eof = true /\ skipn (v_ahead v) cs = [(13, 1)])) ->
    step v (OpReadAhead size dynamic_eof) (ResRead chars) (View Reading (v_content v) (v_pos v) (v_ahead v + length chars))
| step_read_failed : forall v size dynamic_eof,
    step v (OpReadAhead size dynamic_eof) ResFailed (View Reading (v_content v) (v_pos v) (v_ahead v))
| step_advance_all : forall v v', moved v (v_ahead v) v' -> step v OpAdvanceAll ResDone v'
| step_advance : forall v n v', moved v n v' -> step v (OpAdvance n) ResDone v'
| step_discard : forall v, step v OpDiscard ResDone (View Neutral (v_content v) (v_pos v) 0)
| step_discard_failed : forall v, step v OpDiscard ResFailed v
| step_tell_read : forall v, step v OpTellRead (ResTold (v_pos v)) v
| step_tell_read_failed : forall v, step v OpTellRead ResFailed v
| step_seek : forall v pos, step v (OpSeek pos) ResDone (View Neutral (v_content v) pos 0)
| step_seek_failed : forall v pos, step v (OpSeek pos) ResFailed v
| step_write : forall v data n_0, step v (OpWrite data n_0) (ResWrote (length data)) (put v data)
  (* some characters were put in when it failed; n is not set *)
| step_write_failed : forall v data n_0 k, k < length data -> step v (OpWrite data n_0) (ResWriteFailed n_0) (put v (firstn k data))
| step_flush : forall v, step v OpFlush ResDone (View Neutral (v_content v) (v_pos v) 0)
| step_flush_failed : forall v, step v OpFlush ResFailed v
| step_tell_write : forall v, step v OpTellWrite (ResTold (v_pos v)) v
| step_tell_write_failed : forall v, step v OpTellWrite ResFailed v.

(* A history of results is in order if no operation fails an assertion, and if each does what it
   must do, for as long as the operations are allowed.  When nothing is being written, the actual
   file has the contents that it should have. *)
Inductive conforms : view -> list op -> list (option (result * list nat)) -> Prop :=
| conforms_end : forall v, conforms v [] []
| conforms_illegal : forall v o os rs, ~ legal v o -> conforms v (o :: os) rs
| conforms_step : forall v o os r c v' rs, legal v o -> step v o r v' -> (v_mode v' <> Writing -> c = v_content v') ->
    conforms v' os rs -> conforms v (o :: os) (Some (r, c) :: rs).
