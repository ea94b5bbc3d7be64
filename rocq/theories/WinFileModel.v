(* Model of the primitive text file implementation with Windows newlines
   (src/archon/core/impl/prim_text_file_impl.hpp:91-148, 275-337 and
   src/archon/core/impl/prim_text_file_impl.cpp:100-297).

   Sizes and file offsets are natural numbers: casts between them, and additions of them do not
   fail.  The file behaves as documented in src/archon/core/file.hpp:299-460; which operations on
   it fail, and how many bytes are read or written, is up to an environment that is asked once per
   operation.  The contents of the file are changed by nobody else.  None stands for a failed
   assertion, or a span with a size that is out of range. *)
From Coq Require Import List Arith Bool.
From Verif Require Import ArrLib NewlineModel.
Import ListNotations.

(* What the environment does at an operation: whether it fails, and a number of bytes *)
Record env := Env { fails : nat -> bool; amount : nat -> nat; extra : nat -> nat }.

Record file := File { content : list nat; position : nat; clock : nat }.

(* writing at a position; what is between the end of the file and the position becomes zeros *)
Definition overlay (c : list nat) (pos : nat) (d : list nat) : list nat :=
  match d with
  | [] => c
  | _ => firstn pos c ++ repeat 0 (pos - length c) ++ d ++ skipn (pos + length d) c
  end.

Section WinFile.
  Variable e : env.

  (* File::try_read_some(): file.hpp:333-350.  At least one byte, unless at the end of input *)
  Definition try_read_some (f : file) (size : nat) : option (list nat) * file :=
    if fails e (clock f) then (None, File (content f) (position f) (S (clock f)))
    else
      let d := firstn (min size (max 1 (amount e (clock f)))) (skipn (position f) (content f)) in
      (Some d, File (content f) (position f + length d) (S (clock f))).

  (* File::try_write(): file.hpp:317-331.  Whether it succeeds, and the number of bytes written *)
  Definition try_write (f : file) (d : list nat) : bool * nat * file :=
    match d with
    | [] => (true, 0, f)
    | _ =>
      if fails e (clock f) then
        let n := min (length d - 1) (amount e (clock f)) in
        (false, n, File (overlay (content f) (position f) (firstn n d)) (position f + n) (S (clock f)))
      else (true, length d, File (overlay (content f) (position f) d) (position f + length d) (S (clock f)))
    end.

  (* File::try_seek(): file.hpp:442-460.  The resulting position is a function of the current
     one. *)
  Definition try_seek (f : file) (target : nat -> nat) : option nat * file :=
    if fails e (clock f) then (None, File (content f) (position f) (S (clock f)))
    else (Some (target (position f)), File (content f) (target (position f)) (S (clock f))).

  (* PrimWindowsTextFileImpl: prim_text_file_impl.hpp:119-139 *)
  Record impl := Impl { m_file : file; m_buffer : list nat; m_begin : nat; m_end : nat; m_curr : nat;
                        m_retain_size : nat; m_retain_clear : nat }.

  (* Construction followed by reset(): prim_text_file_impl.hpp:275-294 *)
  Definition init (f : file) (buffer : list nat) : impl := Impl f buffer 0 0 0 0 0.

  (* expand_buffer(): prim_text_file_impl.hpp:334-337.  The buffer grows by at least one
     element. *)
  Definition expand_buffer (buffer : list nat) : list nat := buffer ++ repeat 0 (S (extra e (length buffer))).

  Inductive read_result := ReadOk (chars : list nat) | ReadFailed.

  (* The loop of read_ahead(): prim_text_file_impl.cpp:109-145.  The caller's buffer is given by
     its size. *)
  Fixpoint read_loop (fuel : nat) (s : impl) (end_of_file : bool) (size : nat) (dynamic_eof : bool) : option (read_result * impl) :=
    match fuel with
    | 0 => None
    | S fuel =>
      if negb (m_end s <=? length (m_buffer s)) then None else
      let? (curr, out, n, clear) := decode (firstn (m_end s) (m_buffer s)) (m_curr s) end_of_file (repeat 0 size) 0
                                      (m_retain_size s) (m_retain_clear s) in
      let s := Impl (m_file s) (m_buffer s) (m_begin s) (m_end s) curr (m_retain_size s + n) clear in
      if (0 <? n) || (size =? 0) then Some (ReadOk (firstn n out), s) else
      if end_of_file then None else
      if negb (m_begin s <=? m_curr s) then None else
      let kept := skipn (m_begin s) (firstn (m_end s) (m_buffer s)) in
      let buffer := place (m_buffer s) 0 kept in
      let curr := m_curr s - m_begin s in
      let end_ := m_end s - m_begin s in
      let buffer := if end_ =? length buffer then expand_buffer buffer else buffer in
      let (d, f) := try_read_some (m_file s) (length buffer - end_) in
      match d with
      | None => Some (ReadFailed, Impl f buffer 0 end_ curr (m_retain_size s) (m_retain_clear s))
      | Some d =>
        let s := Impl f (place buffer end_ d) 0 (end_ + length d) curr (m_retain_size s) (m_retain_clear s) in
        if 0 <? length d then read_loop fuel s end_of_file size dynamic_eof else
        if (m_end s =? m_curr s) || dynamic_eof then Some (ReadOk [], s) else
        read_loop fuel s true size dynamic_eof
      end
    end.

  (* read_ahead(): prim_text_file_impl.cpp:100-146.  There are at most five rounds. *)
  Definition read_ahead (s : impl) (size : nat) (dynamic_eof : bool) : option (read_result * impl) :=
    read_loop 5 s false size dynamic_eof.

  (* advance(): prim_text_file_impl.cpp:173-183 *)
  Definition advance_all (s : impl) : option impl :=
    if m_begin s <=? m_curr s then Some (Impl (m_file s) (m_buffer s) (m_curr s) (m_end s) (m_curr s) 0 0) else None.

  (* advance(n): prim_text_file_impl.cpp:186-207 *)
  Definition advance (s : impl) (n : nat) : option impl :=
    if negb ((n <=? m_retain_size s) && (m_begin s <=? m_curr s) && (m_curr s <=? m_end s)) then None else
    if m_retain_clear s <=? n then
      Some (Impl (m_file s) (m_buffer s) (m_curr s - (m_retain_size s - n)) (m_end s) (m_curr s) (m_retain_size s - n) 0)
    else
      let? (success, begin_) := simul_decode (firstn (m_curr s) (m_buffer s)) (m_begin s) n in
      if success && (begin_ <=? m_curr s) then
        Some (Impl (m_file s) (m_buffer s) begin_ (m_end s) (m_curr s) (m_retain_size s - n) (m_retain_clear s - n))
      else None.

  (* discard(): prim_text_file_impl.cpp:210-238 *)
  Definition discard (s : impl) : option (bool * impl) :=
    if negb (m_begin s <=? m_end s) then None else
    let n := m_end s - m_begin s in
    let proceed f := Some (true, Impl f (m_buffer s) 0 0 0 0 0) in
    if 0 <? n then
      let (r, f) := try_seek (m_file s) (fun p => p - n) in
      match r with
      | Some _ => proceed f
      | None => Some (false, Impl f (m_buffer s) (m_begin s) (m_end s) (m_curr s) (m_retain_size s) (m_retain_clear s))
      end
    else proceed (m_file s).

  Definition with_file (s : impl) (f : file) : impl :=
    Impl f (m_buffer s) (m_begin s) (m_end s) (m_curr s) (m_retain_size s) (m_retain_clear s).

  (* tell_read(): prim_text_file_impl.cpp:241-260 *)
  Definition tell_read (s : impl) : option (option nat * impl) :=
    if negb (m_begin s <=? m_end s) then None else
    let (r, f) := try_seek (m_file s) (fun p => p) in
    match r with
    | Some p => let n := m_end s - m_begin s in Some (Some (if n <=? p then p - n else 0), with_file s f)
    | None => Some (None, with_file s f)
    end.

  (* tell_write(): prim_text_file_impl.cpp:263-278 *)
  Definition tell_write (s : impl) : option nat * impl :=
    let (r, f) := try_seek (m_file s) (fun p => p) in
    match r with
    | Some p => (Some (p + (m_end s - m_begin s)), with_file s f)
    | None => (None, with_file s f)
    end.

  (* seek(): prim_text_file_impl.hpp:312-331 *)
  Definition seek (s : impl) (pos : nat) : bool * impl :=
    let (r, f) := try_seek (m_file s) (fun _ => pos) in
    match r with
    | Some _ => (true, Impl f (m_buffer s) 0 0 0 0 0)
    | None => (false, with_file s f)
    end.

  (* do_flush(): prim_text_file_impl.cpp:281-297 *)
  Definition do_flush (s : impl) : option (bool * impl) :=
    if negb ((m_begin s <=? m_end s) && (m_end s <=? length (m_buffer s))) then None else
    let '(success, n, f) := try_write (m_file s) (skipn (m_begin s) (firstn (m_end s) (m_buffer s))) in
    Some (success, Impl f (m_buffer s) (if success then 0 else m_begin s + n) (if success then 0 else m_end s)
                     (m_curr s) (m_retain_size s) (m_retain_clear s)).

  (* flush(): prim_text_file_impl.hpp:297-309 *)
  Definition flush (s : impl) : option (bool * impl) :=
    if (m_curr s =? 0) && (m_retain_size s =? 0) && (m_retain_clear s =? 0) then do_flush s else None.

  (* The loop of write(): prim_text_file_impl.cpp:156-169.  The result is whether it succeeds, and
     the value of n, which is n_0 on entry. *)
  Fixpoint write_loop (fuel : nat) (s : impl) (data : list nat) (data_offset n_0 : nat) : option (bool * nat * impl) :=
    match fuel with
    | 0 => None
    | S fuel =>
      let? (data_offset, buffer, end_) := encode data data_offset (m_buffer s) (m_end s) in
      let s := Impl (m_file s) buffer (m_begin s) end_ (m_curr s) (m_retain_size s) (m_retain_clear s) in
      if data_offset =? length data then Some (true, length data, s) else
      if 0 <? m_end s then
        let? (success, s) := do_flush s in
        if success then write_loop fuel s data data_offset n_0 else Some (false, n_0, s)
      else
        write_loop fuel (Impl (m_file s) (expand_buffer (m_buffer s)) (m_begin s) (m_end s) (m_curr s) (m_retain_size s) (m_retain_clear s))
          data data_offset n_0
    end.

  (* write(): prim_text_file_impl.cpp:149-170 *)
  Definition write (s : impl) (data : list nat) (n_0 : nat) : option (bool * nat * impl) :=
    write_loop (4 * length data + 8) s data 0 n_0.

  (* The operations *)
  Inductive op := OpReadAhead (size : nat) (dynamic_eof : bool) | OpAdvanceAll | OpAdvance (n : nat) | OpDiscard | OpTellRead
                | OpSeek (pos : nat) | OpWrite (data : list nat) (n_0 : nat) | OpFlush | OpTellWrite.
  Inductive result := ResRead (chars : list nat) | ResWrote (n : nat) | ResTold (pos : nat) | ResDone | ResFailed | ResWriteFailed (n : nat).

  Definition done (success : bool) : result := if success then ResDone else ResFailed.
  Definition told (pos : option nat) : result := match pos with Some p => ResTold p | None => ResFailed end.

  Definition exec (s : impl) (o : op) : option (result * impl) :=
    match o with
    | OpReadAhead size dynamic_eof =>
      let? (r, s) := read_ahead s size dynamic_eof in Some (match r with ReadOk chars => ResRead chars | ReadFailed => ResFailed end, s)
    | OpAdvanceAll => let? s := advance_all s in Some (ResDone, s)
    | OpAdvance n => let? s := advance s n in Some (ResDone, s)
    | OpDiscard => let? (r, s) := discard s in Some (done r, s)
    | OpTellRead => let? (r, s) := tell_read s in Some (told r, s)
    | OpSeek pos => let (r, s) := seek s pos in Some (done r, s)
    | OpWrite data n_0 => let? (success, n, s) := write s data n_0 in Some (if success then ResWrote n else ResWriteFailed n, s)
    | OpFlush => let? (r, s) := flush s in Some (done r, s)
    | OpTellWrite => let (r, s) := tell_write s in Some (told r, s)
    end.

  (* A history of operations: the results, and the contents of the file after each.  It ends at
     a failed assertion. *)
  Fixpoint exec_all (s : impl) (os : list op) : list (option (result * list nat)) :=
    match os with
    | [] => []
    | o :: os =>
      match exec s o with
      | Some (r, s) => Some (r, content (m_file s)) :: exec_all s os
      | None => [None]
      end
    end.
End WinFile.
