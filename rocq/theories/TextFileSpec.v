(* What text files must do (src/archon/core/text_file_impl_concept.hpp:110-322, src/archon/core/buffered_text_file_impl_concept.hpp:41-65,
   src/archon/core/text_file.hpp). *)
From Coq Require Import List Arith.
From Verif Require Import NewlineSpec WinFileModel WinFileSpec TextFileModel.
Import ListNotations.

(* With Windows newlines, or else one byte per character *)
Definition reads_as (w : bool) (s : list nat) (cs : list (nat * nat)) : Prop := if w then reads s cs else cs = map (fun x => (x, 1)) s.
Definition written_as (w : bool) (s : list nat) : list nat := if w then written s else s.

Definition moved_as (w : bool) (v : view) (n : nat) (v' : view) : Prop :=
  exists cs, reads_as w (skipn (v_pos v) (v_content v)) cs /\
    v' = View (v_mode v) (v_content v) (v_pos v + extent (firstn n cs)) (v_ahead v - n).
Definition put_as (w : bool) (v : view) (s : list nat) : view :=
  View Writing (overlay (v_content v) (v_pos v) (written_as w s)) (v_pos v + length (written_as w s)) 0.

(* Nothing more can be read: it is the end of the file, or a carriage return that might be followed by a line feed later *)
Definition at_end (w dynamic_eof : bool) (cs : list (nat * nat)) : Prop :=
  cs = [] \/ (w = true /\ dynamic_eof = true /\ cs = [(13, 1)]).

(* What an operation of an implementation does.  If reports is true, a failed attempt to write tells how much was written.  Otherwise,
   after such an attempt, it is not known what the contents are.  Operations fail only if flaky is true. *)
Inductive gstep (w reports flaky : bool) : view -> op -> result -> view -> Prop :=
| gstep_read : forall v size dynamic_eof chars cs, reads_as w (skipn (v_pos v) (v_content v)) cs ->
    chars = map fst (firstn (length chars) (skipn (v_ahead v) cs)) -> length chars <= size ->
    (size = 0 \/ chars <> [] \/ at_end w dynamic_eof (skipn (v_ahead v) cs)) ->
    gstep w reports flaky v (OpReadAhead size dynamic_eof) (ResRead chars) (View Reading (v_content v) (v_pos v) (v_ahead v + length chars))
| gstep_read_failed : forall v size dynamic_eof, flaky = true ->
    gstep w reports flaky v (OpReadAhead size dynamic_eof) ResFailed (View Reading (v_content v) (v_pos v) (v_ahead v))
| gstep_advance_all : forall v v', moved_as w v (v_ahead v) v' -> gstep w reports flaky v OpAdvanceAll ResDone v'
| gstep_advance : forall v n v', moved_as w v n v' -> gstep w reports flaky v (OpAdvance n) ResDone v'
| gstep_discard : forall v, gstep w reports flaky v OpDiscard ResDone (View Neutral (v_content v) (v_pos v) 0)
| gstep_discard_failed : forall v, flaky = true -> gstep w reports flaky v OpDiscard ResFailed v
| gstep_tell_read : forall v, gstep w reports flaky v OpTellRead (ResTold (v_pos v)) v
| gstep_tell_read_failed : forall v, flaky = true -> gstep w reports flaky v OpTellRead ResFailed v
| gstep_seek : forall v pos, gstep w reports flaky v (OpSeek pos) ResDone (View Neutral (v_content v) pos 0)
| gstep_seek_failed : forall v pos, flaky = true -> gstep w reports flaky v (OpSeek pos) ResFailed v
| gstep_write : forall v data n_0, gstep w reports flaky v (OpWrite data n_0) (ResWrote (length data)) (put_as w v data)
| gstep_write_failed : forall v data n_0 n k, flaky = true -> k < length data -> n = k \/ (reports = false /\ n = n_0) ->
    gstep w reports flaky v (OpWrite data n_0) (ResWriteFailed n) (put_as w v (firstn k data))
| gstep_flush : forall v, gstep w reports flaky v OpFlush ResDone (View Neutral (v_content v) (v_pos v) 0)
| gstep_flush_failed : forall v, flaky = true -> gstep w reports flaky v OpFlush ResFailed v
| gstep_tell_write : forall v, gstep w reports flaky v OpTellWrite (ResTold (v_pos v)) v
| gstep_tell_write_failed : forall v, flaky = true -> gstep w reports flaky v OpTellWrite ResFailed v
  (* the contents are lost *)
| gstep_write_lost : forall v data n_0 n v', flaky = true -> reports = false -> v_mode v' = Writing -> v_ahead v' = 0 -> n < length data ->
    gstep w reports flaky v (OpWrite data n_0) (ResWriteFailed n) v'
| gstep_flush_lost : forall v v', flaky = true -> reports = false -> v_mode v = Writing -> v_mode v' = Writing -> v_ahead v' = 0 ->
    gstep w reports flaky v OpFlush ResFailed v'
| gstep_tell_write_lost : forall v v', flaky = true -> reports = false -> v_mode v = Writing -> v_mode v' = Writing -> v_ahead v' = 0 ->
    gstep w reports flaky v OpTellWrite ResFailed v'.

(* All characters up to and including the first delimiter *)
Definition ends_at (delim : nat) (chars : list nat) : Prop := exists l, chars = l ++ [delim] /\ ~ In delim l.

(* read_until(): from the read-ahead pointer on.  The logical file pointer is moved to somewhere in between. *)
Inductive bstep (w reports flaky : bool) : view -> bop -> bres -> view -> Prop :=
| bstep_op : forall v o r v', gstep w reports flaky v o r v' -> bstep w reports flaky v (Op o) (Res r) v'
| bstep_until : forall v delim dynamic_eof found chars cs k, reads_as w (skipn (v_pos v) (v_content v)) cs ->
    chars = map fst (firstn (length chars) (skipn (v_ahead v) cs)) ->
    (if found : bool then ends_at delim chars else ~ In delim chars /\ at_end w dynamic_eof (skipn (v_ahead v + length chars) cs)) ->
    k <= length chars ->
    bstep w reports flaky v (ReadUntil delim dynamic_eof) (Until found chars)
      (View Reading (v_content v) (v_pos v + extent (firstn (v_ahead v + k) cs)) (length chars - k))
| bstep_until_failed : forall v delim dynamic_eof chars cs k, flaky = true -> reads_as w (skipn (v_pos v) (v_content v)) cs ->
    chars = map fst (firstn (length chars) (skipn (v_ahead v) cs)) -> ~ In delim chars -> k <= length chars ->
    bstep w reports flaky v (ReadUntil delim dynamic_eof) (UntilFailed chars)
      (View Reading (v_content v) (v_pos v + extent (firstn (v_ahead v + k) cs)) (length chars - k)).

Definition blegal (v : view) (o : bop) : Prop :=
  match o with Op o => legal v o | ReadUntil _ _ => v_mode v <> Writing end.

(* A history is in order if no operation fails an assertion, and each does what it must do, for as long as operations are allowed.  When
   nothing is being written, the actual file has the contents that it should have. *)
Inductive in_order {V O R : Type} (allowed : V -> O -> Prop) (does : V -> O -> R -> V -> Prop) (settled : V -> Prop) (shows : V -> list nat) :
    V -> list O -> list (option (R * list nat)) -> Prop :=
| in_order_end : forall v, in_order allowed does settled shows v [] []
| in_order_illegal : forall v o os rs, ~ allowed v o -> in_order allowed does settled shows v (o :: os) rs
| in_order_step : forall v o os r c v' rs, allowed v o -> does v o r v' -> (settled v' -> c = shows v') ->
    in_order allowed does settled shows v' os rs -> in_order allowed does settled shows v (o :: os) (Some (r, c) :: rs).

(* ---- the files of applications ---- *)

(* The contents, the position, and whether there may be something that is not yet in the actual file *)
Record tview := TView { tv_content : list nat; tv_pos : nat; tv_dirty : bool }.

Definition tput (w : bool) (v : tview) (s : list nat) : tview :=
  TView (overlay (tv_content v) (tv_pos v) (written_as w s)) (tv_pos v + length (written_as w s)) true.

(* the position after the characters *)
Definition after (v : tview) (cs : list (nat * nat)) (dirty : bool) : tview := TView (tv_content v) (tv_pos v + extent cs) dirty.

Inductive tstep (w reports flaky dynamic_eof : bool) : tview -> top -> tres -> tview -> Prop :=
| tstep_read : forall v size chars cs, reads_as w (skipn (tv_pos v) (tv_content v)) cs -> chars = map fst (firstn (length chars) cs) ->
    length chars <= size -> (length chars = size \/ at_end w dynamic_eof (skipn (length chars) cs)) ->
    tstep w reports flaky dynamic_eof v (Read size) (GotChars chars) (after v (firstn (length chars) cs) false)
| tstep_read_some : forall v size chars cs, reads_as w (skipn (tv_pos v) (tv_content v)) cs -> chars = map fst (firstn (length chars) cs) ->
    length chars <= size -> (size = 0 \/ chars <> [] \/ at_end w dynamic_eof cs) ->
    tstep w reports flaky dynamic_eof v (ReadSome size) (GotChars chars) (after v (firstn (length chars) cs) false)
| tstep_read_all : forall v chars cs, reads_as w (skipn (tv_pos v) (tv_content v)) cs -> chars = map fst (firstn (length chars) cs) ->
    at_end w dynamic_eof (skipn (length chars) cs) ->
    tstep w reports flaky dynamic_eof v ReadAll (GotChars chars) (after v (firstn (length chars) cs) false)
  (* a line that ends with a newline *)
| tstep_line : forall v line cs, reads_as w (skipn (tv_pos v) (tv_content v)) cs -> line ++ [10] = map fst (firstn (length line + 1) cs) ->
    ~ In 10 line -> tstep w reports flaky dynamic_eof v ReadLine (GotLine (Some line)) (after v (firstn (length line + 1) cs) false)
  (* the rest of the file, with no newline *)
| tstep_last_line : forall v line cs, reads_as w (skipn (tv_pos v) (tv_content v)) cs -> line = map fst (firstn (length line) cs) ->
    ~ In 10 line -> at_end w dynamic_eof (skipn (length line) cs) ->
    tstep w reports flaky dynamic_eof v ReadLine (GotLine match line with [] => None | _ => Some line end) (after v (firstn (length line) cs) false)
| tstep_write : forall v data, tstep w reports flaky dynamic_eof v (Write data) Wrote (tput w v data)
| tstep_flush : forall v, tstep w reports flaky dynamic_eof v Flush Done (TView (tv_content v) (tv_pos v) false)
| tstep_tell : forall v, tstep w reports flaky dynamic_eof v Tell (Told (tv_pos v)) v
| tstep_seek : forall v pos, tstep w reports flaky dynamic_eof v (Seek pos) Done (TView (tv_content v) pos false)
  (* failures *)
| tstep_failed : forall v o dirty, flaky = true -> (forall data, o <> Write data) -> (tv_dirty v = false -> dirty = false) ->
    tstep w reports flaky dynamic_eof v o Failed (TView (tv_content v) (tv_pos v) dirty)
| tstep_read_failed : forall v o chars cs dirty, flaky = true ->
    o = ReadAll \/ (exists size, o = Read size /\ length chars <= size) \/ (o = ReadLine /\ ~ In 10 chars) ->
    reads_as w (skipn (tv_pos v) (tv_content v)) cs -> chars = map fst (firstn (length chars) cs) ->
    (tv_dirty v = false \/ chars <> [] -> dirty = false) ->
    tstep w reports flaky dynamic_eof v o (FailedRead chars) (after v (firstn (length chars) cs) dirty)
| tstep_write_failed : forall v data n k, flaky = true -> k <= length data -> k < length data \/ data = [] -> n = k \/ reports = false ->
    tstep w reports flaky dynamic_eof v (Write data) (FailedWrite n) (tput w v (firstn k data))
  (* the contents are lost *)
| tstep_lost : forall v o r v', flaky = true -> reports = false -> tv_dirty v' = true -> tv_dirty v = true \/ (exists data, o = Write data) ->
    r = Failed \/ r = FailedRead [] \/ (exists n, r = FailedWrite n) -> tstep w reports flaky dynamic_eof v o r v'.
