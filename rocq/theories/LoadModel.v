(* Model of rewindable byte sources (core/rewindable_source.hpp and .cpp), and of the detection of the file format when an
   image is loaded (image/load.cpp) *)
From Coq Require Import ZArith Bool List.
From Verif Require Import FlatMapModel FmtRegModel ArrLib.
Import ListNotations.

(* The underlying source: the bytes that have not yet been read, and what decides how many bytes each of the following
   read operations will deliver at most, in addition to the first one.  None stands for a failure. *)
Record subsource := Subsource { sub_rest : list Z; sub_steps : list (option nat) }.

(* Source::try_read_some() of the underlying source, as documented in core/source.hpp:81-106.  size is the size of the
   buffer.  The result is None on failure. *)
Definition sub_read (s : subsource) (size : nat) : subsource * option (list Z) :=
  match sub_steps s with
  | [] =>
    (Subsource (skipn size (sub_rest s)) [], Some (firstn size (sub_rest s)))
  | None :: steps => (Subsource (sub_rest s) steps, None)
  | Some extra :: steps =>
    let n := Nat.min size (S extra) in
    (Subsource (skipn n (sub_rest s)) steps, Some (firstn n (sub_rest s)))
  end.

(* RewindableSource: rewindable_source.hpp:97-101.  rs_buffer is the used part of the buffer (m_size is its length), and
   rs_capacity is the size of the buffer. *)
Record rsource := RSource {
  rs_sub : subsource;
  rs_buffer : list Z;
  rs_capacity : nat;
  rs_offset : nat;
  rs_released : bool;
}.

Section Source.
(* the size of the buffer after expansion, given the number of bytes that are in use, see C26 for what it is *)
Context (grow : nat -> nat).

(* the part of do_try_read_some() that reads from the buffer: rewindable_source.cpp:52-58 *)
Definition read_from_buffer (r : rsource) (size : nat) : rsource * option (list Z) :=
  let avail := (length (rs_buffer r) - rs_offset r)%nat in
  let n_2 := Nat.min avail size in
  (RSource (rs_sub r) (rs_buffer r) (rs_capacity r) (rs_offset r + n_2) (rs_released r),
   Some (firstn n_2 (skipn (rs_offset r) (rs_buffer r)))).

(* do_try_read_some: rewindable_source.cpp:34-59 *)
Definition do_try_read_some (r : rsource) (size : nat) : rsource * option (list Z) :=
  if (rs_offset r =? length (rs_buffer r))%nat then
    if rs_released r then
      let (sub, res) := sub_read (rs_sub r) size in
      (RSource sub (rs_buffer r) (rs_capacity r) (rs_offset r) (rs_released r), res)
    else
      let m_size := length (rs_buffer r) in
      let capacity := if (m_size <? rs_capacity r)%nat then rs_capacity r else grow m_size in
      let (sub, res) := sub_read (rs_sub r) (capacity - m_size) in
      match res with
      | Some bytes =>
        if (0 <? length bytes)%nat then
          read_from_buffer (RSource sub (rs_buffer r ++ bytes) capacity (rs_offset r) (rs_released r)) size
        else (RSource sub (rs_buffer r) capacity (rs_offset r) (rs_released r), Some [])
      | None => (RSource sub (rs_buffer r) capacity (rs_offset r) (rs_released r), None)
      end
  else read_from_buffer r size.

(* rewind: rewindable_source.hpp:121-125; None if the assertion fails *)
Definition rewind (r : rsource) : option rsource :=
  if negb (rs_released r) then Some (RSource (rs_sub r) (rs_buffer r) (rs_capacity r) 0 (rs_released r)) else None.

(* release: rewindable_source.hpp:128-131 *)
Definition release (r : rsource) : rsource :=
  RSource (rs_sub r) (rs_buffer r) (rs_capacity r) (rs_offset r) true.

(* A function that reads from a source, as a strategy: it either returns a value, throws, or reads into a buffer of the
   specified size and goes on depending on what comes out of it.  FileFormat::recognize() is such a function. *)
Inductive reader := Return (value : bool) | Throw | Read (size : nat) (cont : option (list Z) -> reader).

Fixpoint run_reader (p : reader) (r : rsource) : rsource * option bool :=
  match p with
  | Return v => (r, Some v)
  | Throw => (r, None)
  | Read size cont =>
    let (r, res) := do_try_read_some r size in
    run_reader (cont res) r
  end.

(* recognize(): the function of each file format *)
Context (recognize : format -> reader).

(* outcome of a part of the detection *)
Inductive detection := Found (f : format) (r : rsource) | NotFound (r : rsource) | Thrown.

(* the loops in load.cpp:96-105, 112-121, and 126-136.  checked is checked_formats, a FlatSet of pointers.  Pointers are
   the numbers that stand for the identity of the formats. *)
Fixpoint check_formats (fs : list format) (checked : list nat) (source : rsource) : option detection :=
  match fs with
  | [] => Some (NotFound source)
  | format_2 :: fs =>
    let? seen := fm_contains Nat.ltb (fun x => x) checked (f_object format_2) in
    if negb seen then
      let (source, success) := run_reader (recognize format_2) source in
      match success with
      | None => Some Thrown
      | Some success =>
        let? source := rewind source in
        if (success : bool) then Some (Found format_2 source)
        else check_formats fs checked source
      end
    else check_formats fs checked source
  end.

(* FlatSet::insert(begin, end): flat_set.hpp:294-298 *)
Fixpoint insert_range (checked : list nat) (fs : list format) : option (list nat) :=
  match fs with
  | [] => Some checked
  | f :: fs =>
    let? p := fm_insert Nat.ltb (fun x => x) checked (f_object f) in
    insert_range (fst (fst p)) fs
  end.

(* get_file_format() for i = 0, ..., n - 1, where an exception cannot be (None); load.cpp:125-127 *)
Fixpoint get_formats (r : registry) (i : Z) (n : nat) : option (list format) :=
  match n with
  | O => Some []
  | S n =>
    let? f := get_file_format r i in
    let? f := f in
    let? fs := get_formats r (i + 1) n in
    Some (f :: fs)
  end.

(* outcome of try_load_a(): the format and the source that FileFormat::try_load() is called with, or an error *)
Inductive load_outcome :=
| Load (f : format) (source : rsource)
| LoadDirect (f : format) (source : subsource)
| DetectionFailed
| Unavailable
| LoadThrown.

(* try_load_a: load.cpp:80-149.  capacity is the initial size of the buffer (256).  The formats in the third loop are
   obtained before the loop; they do not depend on the iterations. *)
Definition try_load_a (registry : registry) (capacity : nat) (file_format mime_type filename_extension : list Z)
    (input : subsource) : option load_outcome :=
  match file_format with
  | [] =>
    let source := RSource input [] capacity 0 false in
    let format_found (f : format) (source : rsource) := Some (Load f (release source)) in
    let? res1 :=
      (match mime_type with
       | [] => Some (NotFound source, [])
       | _ =>
         let? tray := lookup_all_by_mime_type registry mime_type [] in
         let? d := check_formats tray [] source in
         let? checked := insert_range [] tray in
         Some (d, checked)
       end) in
    let '(d, checked) := res1 in
    match d with
    | Thrown => Some LoadThrown
    | Found f source => format_found f source
    | NotFound source =>
      let? res2 :=
        (match filename_extension with
         | [] => Some (NotFound source, checked)
         | _ =>
           let? tray := lookup_all_by_extension registry filename_extension [] in
           let? d := check_formats tray checked source in
           let? checked := insert_range checked tray in
           Some (d, checked)
         end) in
      let '(d, checked) := res2 in
      match d with
      | Thrown => Some LoadThrown
      | Found f source => format_found f source
      | NotFound source =>
        let? n := get_num_file_formats registry in
        let? fs := get_formats registry 0 (Z.to_nat n) in
        let? d := check_formats fs checked source in
        match d with
        | Thrown => Some LoadThrown
        | Found f source => format_found f source
        | NotFound source => Some DetectionFailed
        end
      end
    end
  | _ =>
    let? f := lookup registry file_format in
    match f with
    | Some f => Some (LoadDirect f input)
    | None => Some Unavailable
    end
  end.
End Source.
