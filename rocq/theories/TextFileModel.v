(* Model of text files: the primitive text file implementation with POSIX newlines (src/archon/core/impl/prim_text_file_impl.hpp:52-87,
   160-268 and src/archon/core/impl/prim_text_file_impl.cpp:43-93), the buffered text file implementation
   (src/archon/core/impl/buffered_text_file_impl.hpp), and the text file classes on top (src/archon/core/text_file.hpp and
   src/archon/core/buffered_text_file.hpp).

   As in WinFileModel, sizes and file offsets are natural numbers, and which operations on the actual file fail is up to an environment.
   None stands for a failed assertion, or a position that is out of range.  The character codec is degenerate (char_type is char), so
   unshift() has no effect, and TextFileImpl1 (src/archon/core/impl/text_file_impl.hpp:243-345) passes everything on to the primitive implementation.  Variables
   that exist in debug mode only are not modelled. *)
From Coq Require Import List Arith Bool.
From Verif Require Import ArrLib NewlineModel WinFileModel.
Import ListNotations.

(* ---- PrimPosixTextFileImpl ---- *)

Section Posix.
  Variable e : env.

  (* prim_text_file_impl.hpp:79-81 *)
  Record posix := Posix { p_file : file; p_retain : nat }.

  (* Construction followed by reset(): prim_text_file_impl.hpp:163-177 *)
  Definition posix_init (f : file) : posix := Posix f 0.

  (* read_ahead(): prim_text_file_impl.cpp:46-66; discard(): prim_text_file_impl.cpp:69-93; write(), advance(), flush(), tell_read(),
     tell_write(), seek(): prim_text_file_impl.hpp:180-268.  As sizes are natural numbers, there is always room for more retained
     characters, and casts between sizes and file offsets succeed. *)
  Definition posix_exec (s : posix) (o : op) : option (result * posix) :=
    match o with
    | OpReadAhead size _ =>
      let (d, f) := try_read_some e (p_file s) size in
      match d with
      | Some d => Some (ResRead d, Posix f (p_retain s + length d))
      | None => Some (ResFailed, Posix f (p_retain s))
      end
    | OpAdvanceAll => Some (ResDone, Posix (p_file s) 0)
    | OpAdvance n => if n <=? p_retain s then Some (ResDone, Posix (p_file s) (p_retain s - n)) else None
    | OpDiscard =>
      if 0 <? p_retain s then
        let (r, f) := try_seek e (p_file s) (fun p => p - p_retain s) in
        match r with
        | Some _ => Some (ResDone, Posix f 0)
        | None => Some (ResFailed, Posix f (p_retain s))
        end
      else Some (ResDone, s)
    | OpTellRead =>
      let (r, f) := try_seek e (p_file s) (fun p => p) in
      match r with
      | Some p => Some (ResTold (if p_retain s <=? p then p - p_retain s else 0), Posix f (p_retain s))
      | None => Some (ResFailed, Posix f (p_retain s))
      end
    | OpSeek pos =>
      let (r, f) := try_seek e (p_file s) (fun _ => pos) in
      match r with
      | Some _ => Some (ResDone, Posix f 0)
      | None => Some (ResFailed, Posix f (p_retain s))
      end
    | OpWrite data _ =>
      let '(success, n, f) := try_write e (p_file s) data in
      Some (if success then ResWrote n else ResWriteFailed n, Posix f (p_retain s))
    | OpFlush => Some (ResDone, s)
    | OpTellWrite =>
      let (r, f) := try_seek e (p_file s) (fun p => p) in
      Some (told r, Posix f (p_retain s))
    end.
End Posix.

(* ---- BufferedTextFileImpl ---- *)

(* The operations of a buffered text file implementation *)
Inductive bop := Op (o : op) | ReadUntil (delim : nat) (dynamic_eof : bool).
Inductive bres := Res (r : result) | Until (found : bool) (chars : list nat) | UntilFailed (chars : list nat).

Section Buffered.
  (* the implementation that is buffered, its operations, and the size of its file, which bounds the number of rounds in read_until() *)
  Context {T : Type} (sub : T -> op -> option (result * T)) (total : T -> nat).
  (* by how much more than one element a buffer grows *)
  Variable more : nat -> nat.

  (* buffered_text_file_impl.hpp:87-109 *)
  Record buffered := Buffered { b_sub : T; b_buffer : list nat; b_begin : nat; b_end : nat; b_offset : nat; b_curr : nat }.

  Definition grow (buffer : list nat) : list nat := buffer ++ repeat 0 (S (more (length buffer))).

  (* Construction followed by reset(): buffered_text_file_impl.hpp:145-169 *)
  Definition buffered_init (s : T) (buffer : list nat) : buffered :=
    Buffered s (if length buffer <? 1 then grow buffer else buffer) 0 0 0 0.

  Definition with_sub (b : buffered) (s : T) : buffered := Buffered s (b_buffer b) (b_begin b) (b_end b) (b_offset b) (b_curr b).

  (* label copy: buffered_text_file_impl.hpp:183-189 *)
  Definition copy_out (b : buffered) (size : nat) : option (result * buffered) :=
    let n := min size (b_end b - b_curr b) in
    if negb ((b_curr b <=? b_end b) && (b_end b <=? length (b_buffer b)) && (0 <? n)) then None else
    Some (ResRead (firstn n (skipn (b_curr b) (b_buffer b))), Buffered (b_sub b) (b_buffer b) (b_begin b) (b_end b) (b_offset b) (b_curr b + n)).

  (* read_ahead(): buffered_text_file_impl.hpp:172-219 *)
  Definition b_read_ahead (b : buffered) (size : nat) (dynamic_eof : bool) : option (result * buffered) :=
    if 0 <? size then
      if b_curr b <? b_end b then copy_out b size else
      if negb ((b_offset b <=? b_begin b) && (b_begin b <=? b_curr b) && (b_begin b <=? b_end b) && (b_end b <=? length (b_buffer b))) then None else
      let? (_, s) := sub (b_sub b) (OpAdvance (b_begin b - b_offset b)) in
      let buffer := place (b_buffer b) 0 (skipn (b_begin b) (firstn (b_end b) (b_buffer b))) in
      let end_ := b_end b - b_begin b in
      let curr := b_curr b - b_begin b in
      let buffer := if end_ =? length buffer then grow buffer else buffer in
      let? (r, s) := sub s (OpReadAhead (length buffer - end_) dynamic_eof) in
      match r with
      | ResRead chars =>
        if 0 <? length chars then copy_out (Buffered s (place buffer end_ chars) 0 (end_ + length chars) 0 curr) size
        else Some (ResRead [], Buffered s buffer 0 end_ 0 curr)
      | _ => Some (ResFailed, Buffered s buffer 0 end_ 0 curr)
      end
    else Some (ResRead [], b).

  (* std::find() followed by the copying: the characters up to and including the first delimiter *)
  Fixpoint upto (delim : nat) (chars : list nat) : option (list nat) :=
    match chars with
    | [] => None
    | c :: chars => if c =? delim then Some [c] else let? l := upto delim chars in Some (c :: l)
    end.

  (* from label again: buffered_text_file_impl.hpp:234-263.  The third argument is what was placed in the caller's buffer. *)
  Fixpoint until_loop (fuel : nat) (b : buffered) (out : list nat) (delim : nat) (dynamic_eof : bool) : option (bres * buffered) :=
    match fuel with
    | 0 => None
    | S fuel =>
      if negb ((b_curr b <=? b_end b) && (b_end b <=? length (b_buffer b))) then None else
      let rest := skipn (b_curr b) (firstn (b_end b) (b_buffer b)) in
      match upto delim rest with
      | Some chars =>
        Some (Until true (out ++ chars), Buffered (b_sub b) (b_buffer b) (b_begin b) (b_end b) (b_offset b) (b_curr b + length chars))
      | None =>
        let out := out ++ rest in
        let? (_, s) := sub (b_sub b) OpAdvanceAll in
        let? (r, s) := sub s (OpReadAhead (length (b_buffer b)) dynamic_eof) in
        match r with
        | ResRead chars =>
          if 0 <? length chars then until_loop fuel (Buffered s (place (b_buffer b) 0 chars) 0 (length chars) 0 0) out delim dynamic_eof
          else Some (Until false out, Buffered s (b_buffer b) 0 0 0 0)
        | _ => Some (UntilFailed out, Buffered s (b_buffer b) 0 0 0 0)
        end
      end
    end.

  (* read_until(): buffered_text_file_impl.hpp:222-264 *)
  Definition b_read_until (b : buffered) (delim : nat) (dynamic_eof : bool) : option (bres * buffered) :=
    if negb (b_begin b <=? b_curr b) then None else
    until_loop (total (b_sub b) + 2) (Buffered (b_sub b) (b_buffer b) (b_curr b) (b_end b) (b_offset b) (b_curr b)) [] delim dynamic_eof.

  (* shallow_flush(): buffered_text_file_impl.hpp:448-465 *)
  Definition shallow_flush (b : buffered) : option (bool * buffered) :=
    if negb ((b_begin b <=? b_end b) && (b_end b <=? length (b_buffer b))) then None else
    let? (r, s) := sub (b_sub b) (OpWrite (skipn (b_begin b) (firstn (b_end b) (b_buffer b))) 0) in
    match r with
    | ResWrote _ => Some (true, Buffered s (b_buffer b) 0 0 (b_offset b) (b_curr b))
    | ResWriteFailed n => Some (false, Buffered s (b_buffer b) (b_begin b + n) (b_end b) (b_offset b) (b_curr b))
    | _ => None
    end.

  (* write(): buffered_text_file_impl.hpp:267-294 *)
  Fixpoint b_write_loop (fuel : nat) (b : buffered) (data data_2 : list nat) : option (result * buffered) :=
    match fuel with
    | 0 => None
    | S fuel =>
      if negb (b_end b <=? length (b_buffer b)) then None else
      let capacity := length (b_buffer b) - b_end b in
      let n := min (length data_2) capacity in
      let b := Buffered (b_sub b) (place (b_buffer b) (b_end b) (firstn n data_2)) (b_begin b) (b_end b + n) (b_offset b) (b_curr b) in
      if length data_2 <=? capacity then Some (ResWrote (length data), b) else
      let data_2 := skipn n data_2 in
      let? (success, b) := shallow_flush b in
      if success then
        if b_end b =? 0 then b_write_loop fuel b data data_2 else None
      else Some (ResWriteFailed (length data - length data_2), b)
    end.
  Definition b_write (b : buffered) (data : list nat) : option (result * buffered) :=
    if 0 <? length (b_buffer b) then b_write_loop (length data + 2) b data data else None.

  (* advance(), discard(), flush(), tell_read(), tell_write(), seek(): buffered_text_file_impl.hpp:313-433.  A failed attempt to flush is
     followed by an attempt to flush the implementation below. *)
  Definition b_exec (b : buffered) (o : bop) : option (bres * buffered) :=
    match o with
    | Op (OpReadAhead size dynamic_eof) => let? (r, b) := b_read_ahead b size dynamic_eof in Some (Res r, b)
    | ReadUntil delim dynamic_eof => b_read_until b delim dynamic_eof
    | Op (OpWrite data _) => let? (r, b) := b_write b data in Some (Res r, b)
    | Op OpAdvanceAll =>
      if b_begin b <=? b_curr b then Some (Res ResDone, Buffered (b_sub b) (b_buffer b) (b_curr b) (b_end b) (b_offset b) (b_curr b)) else None
    | Op (OpAdvance n) =>
      if (b_begin b <=? b_curr b) && (n <=? b_curr b - b_begin b) then
        Some (Res ResDone, Buffered (b_sub b) (b_buffer b) (b_begin b + n) (b_end b) (b_offset b) (b_curr b))
      else None
    | Op OpDiscard =>
      if negb (b_offset b <=? b_begin b) then None else
      let? (_, s) := sub (b_sub b) (OpAdvance (b_begin b - b_offset b)) in
      let? (r, s) := sub s OpDiscard in
      match r with
      | ResDone => Some (Res ResDone, Buffered s (b_buffer b) 0 0 0 0)
      | _ => Some (Res ResFailed, Buffered s (b_buffer b) (b_begin b) (b_end b) (b_begin b) (b_curr b))
      end
    | Op OpFlush =>
      if negb ((b_offset b =? 0) && (b_curr b =? 0)) then None else
      let? (success, b) := shallow_flush b in
      let? (r, s) := sub (b_sub b) OpFlush in
      Some (Res (if success then r else ResFailed), with_sub b s)
    | Op OpTellRead =>
      if negb (b_offset b <=? b_begin b) then None else
      let? (_, s) := sub (b_sub b) (OpAdvance (b_begin b - b_offset b)) in
      let? (r, s) := sub s OpTellRead in
      Some (Res r, Buffered s (b_buffer b) (b_begin b) (b_end b) (b_begin b) (b_curr b))
    | Op OpTellWrite =>
      let? (success, b) := if b_begin b =? b_end b then Some (true, b) else shallow_flush b in
      if success then let? (r, s) := sub (b_sub b) OpTellWrite in Some (Res r, with_sub b s)
      else Some (Res ResFailed, b)
    | Op (OpSeek pos) =>
      let? (r, s) := sub (b_sub b) (OpSeek pos) in
      match r with
      | ResDone => Some (Res ResDone, Buffered s (b_buffer b) 0 0 0 0)
      | _ => Some (Res ResFailed, with_sub b s)
      end
    end.
End Buffered.
Arguments buffered : clear implicits.

(* An implementation that is not buffered has no read_until() *)
Definition unbuffered {T : Type} (sub : T -> op -> option (result * T)) (s : T) (o : bop) : option (bres * T) :=
  match o with
  | Op o => let? (r, s) := sub s o in Some (Res r, s)
  | ReadUntil _ _ => None
  end.

(* ---- GenericTextFile and GenericBufferedTextFile ---- *)

Inductive top := Read (size : nat) | ReadSome (size : nat) | ReadLine | ReadAll | Write (data : list nat) | Flush | Tell | Seek (pos : nat).
Inductive tres := GotChars (chars : list nat) | GotLine (line : option (list nat)) | Wrote | Told (pos : nat) | Done
  (* failure, with the characters that were read, or the number of characters that were written *)
| Failed | FailedRead (chars : list nat) | FailedWrite (n : nat).

Section Top.
  (* the implementation, and the size of its file, which bounds the number of rounds in try_read_all() *)
  Context {T : Type} (impl : T -> bop -> option (bres * T)) (total : T -> nat).
  Variable dynamic_eof : bool.      (* m_dynamic_eof *)
  Variable more : nat -> nat.

  (* text_file.hpp: m_impl, m_reading, m_writing *)
  Record tfile := TFile { t_impl : T; t_reading : bool; t_writing : bool }.

  (* stop_reading(): text_file.hpp:731-742 *)
  Definition stop_reading (t : tfile) : option (bool * tfile) :=
    if negb (t_reading t && negb (t_writing t)) then None else
    let? (_, s) := impl (t_impl t) (Op OpAdvanceAll) in
    let? (r, s) := impl s (Op OpDiscard) in
    match r with
    | Res ResDone => Some (true, TFile s false (t_writing t))
    | _ => Some (false, TFile s (t_reading t) (t_writing t))
    end.

  (* stop_writing(): text_file.hpp:745-770 *)
  Definition stop_writing (t : tfile) : option (bool * tfile) :=
    if negb (negb (t_reading t) && t_writing t) then None else
    let? (r, s) := impl (t_impl t) (Op OpFlush) in
    match r with
    | Res ResDone => Some (true, TFile s (t_reading t) false)
    | _ => Some (false, TFile s (t_reading t) (t_writing t))
    end.

  (* do_read_some(): text_file.hpp:773-779.  None as result if it fails. *)
  Definition do_read_some (t : tfile) (size : nat) : option (option (list nat) * tfile) :=
    if t_writing t then None else
    let? (_, s) := impl (t_impl t) (Op OpAdvanceAll) in
    let? (r, s) := impl s (Op (OpReadAhead size dynamic_eof)) in
    match r with
    | Res (ResRead chars) => Some (Some chars, TFile s (t_reading t) (t_writing t))
    | _ => Some (None, TFile s (t_reading t) (t_writing t))
    end.

  (* what precedes reading, if it is allowed to proceed: text_file.hpp:528-530, 545-548 *)
  Definition for_reading (t : tfile) : option (bool * tfile) :=
    if t_writing t then
      let? (success, t) := stop_writing t in
      Some (success, if success then TFile (t_impl t) true (t_writing t) else t)
    else Some (true, TFile (t_impl t) true (t_writing t)).

  (* the loop of try_read(): text_file.hpp:533-543.  Whether it succeeds, and the characters read *)
  Fixpoint read_rounds (fuel : nat) (t : tfile) (size : nat) (got : list nat) : option (bool * list nat * tfile) :=
    match fuel with
    | 0 => None
    | S fuel =>
      let? (r, t) := do_read_some t size in
      match r with
      | Some chars =>
        if negb (length chars <=? size) then None else
        if (0 <? length chars) && (length chars <? size) then read_rounds fuel t (size - length chars) (got ++ chars)
        else Some (true, got ++ chars, t)
      | None => Some (false, got, t)
      end
    end.

  (* try_read(): text_file.hpp:525-549 *)
  Definition try_read (t : tfile) (size : nat) : option (bool * list nat * tfile) :=
    let? (proceed, t) := for_reading t in
    if proceed then read_rounds (size + 1) t size [] else Some (false, [], t).

  (* try_read_all(): text_file.hpp:581-597.  There is room for at least 256 more characters in each round. *)
  Fixpoint read_all_rounds (fuel : nat) (t : tfile) (got : list nat) : option (bool * list nat * tfile) :=
    match fuel with
    | 0 => None
    | S fuel =>
      let? (success, chars, t) := try_read t (256 + more (length got)) in
      let got := got ++ chars in
      if success then if 0 <? length chars then read_all_rounds fuel t got else Some (true, got, t)
      else Some (false, got, t)
    end.

  (* try_read(), try_read_some(), try_read_all(), try_write(), try_flush(), try_tell(), try_seek(): text_file.hpp:525-647;
     try_read_line(): buffered_text_file.hpp:223-248, for the newline character *)
  Definition t_exec (t : tfile) (o : top) : option (tres * tfile) :=
    match o with
    | Read size =>
      let? (success, chars, t) := try_read t size in
      Some (if success then GotChars chars else FailedRead chars, t)
    | ReadSome size =>
      let? (proceed, t) := for_reading t in
      if proceed then
        let? (r, t) := do_read_some t size in
        Some (match r with Some chars => GotChars chars | None => Failed end, t)
      else Some (Failed, t)
    | ReadAll =>
      let rounds := match for_reading t with Some (_, t) => total (t_impl t) + 2 | None => 1 end in
      let? (success, chars, t) := read_all_rounds rounds t [] in
      Some (if success then GotChars chars else FailedRead chars, t)
    | ReadLine =>
      let? (proceed, t) := for_reading t in
      if proceed then
        let? (r, s) := impl (t_impl t) (ReadUntil NL dynamic_eof) in
        let t := TFile s (t_reading t) (t_writing t) in
        match r with
        | Until found_delim chars =>
          if found_delim then
            if 0 <? length chars then Some (GotLine (Some (firstn (length chars - 1) chars)), t) else None
          else Some (GotLine (if 0 <? length chars then Some chars else None), t)
        | UntilFailed chars => Some (FailedRead chars, t)
        | Res _ => None
        end
      else Some (FailedRead [], t)
    | Write data =>
      let? (proceed, t) := if t_reading t then stop_reading t else Some (true, t) in
      if proceed then
        let? (r, s) := impl (t_impl t) (Op (OpWrite data 0)) in
        let t := TFile s (t_reading t) true in
        match r with
        | Res (ResWrote _) => Some (Wrote, t)
        | Res (ResWriteFailed n) => Some (FailedWrite n, t)
        | _ => None
        end
      else Some (FailedWrite 0, t)
    | Flush =>
      if t_writing t then let? (success, t) := stop_writing t in Some (if success then Done else Failed, t)
      else Some (Done, t)
    | Tell =>
      let? s := if t_reading t then let? (_, s) := impl (t_impl t) (Op OpAdvanceAll) in Some s else Some (t_impl t) in
      let? (r, s) := impl s (Op (if t_reading t then OpTellRead else OpTellWrite)) in
      Some (match r with Res (ResTold p) => Told p | _ => Failed end, TFile s (t_reading t) (t_writing t))
    | Seek pos =>
      let? (proceed, t) := if t_writing t then stop_writing t else Some (true, t) in
      if proceed then
        let? (r, s) := impl (t_impl t) (Op (OpSeek pos)) in
        match r with
        | Res ResDone => Some (Done, TFile s false (t_writing t))
        | _ => Some (Failed, TFile s (t_reading t) (t_writing t))
        end
      else Some (Failed, t)
    end.
End Top.
Arguments tfile : clear implicits.

(* A history of operations: the results, and the contents of the actual file after each.  It ends at a failed assertion. *)
Fixpoint history {T O R : Type} (exec : T -> O -> option (R * T)) (content_of : T -> list nat) (s : T) (os : list O) : list (option (R * list nat)) :=
  match os with
  | [] => []
  | o :: os =>
    match exec s o with
    | Some (r, s) => Some (r, content_of s) :: history exec content_of s os
    | None => [None]
    end
  end.
