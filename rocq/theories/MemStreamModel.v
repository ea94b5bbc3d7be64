(* Model of memory streams: src/archon/core/memory_output_stream.hpp,
   src/archon/core/memory_input_stream.hpp, and
   src/archon/core/seed_memory_output_stream.hpp.

   std::size_t has 64 bits, std::streamoff is a signed integer of 64 bits, and int has 32
   bits.  Pointers of a stream buffer are offsets from the beginning of its memory.  A
   position of type pos_type is an offset and a flag for the initial conversion state.
   openmode is a flag: exactly the mode of the stream (out or in), or anything else.  The
   functions of std::basic_streambuf that call the overriding functions are modelled
   according to the standard.  UB is undefined behaviour or a failed assertion. *)
From Coq Require Import ZArith Bool List.
From Verif Require Import CInt IntModel BufferModel ArrLib.
Import ListNotations.
Open Scope Z_scope.

Definition t_size : ity := ITy 64 false.
Definition t_off : ity := ITy 64 true.
Definition int_max : Z := 2 ^ 31 - 1.

Inductive seekdir := Beg | Cur | End.

(* std::basic_streambuf::pbump(): the put pointer must stay in the array *)
Definition pbump (capacity pos n : Z) : option Z :=
  if (0 <=? pos + n) && (pos + n <=? capacity) then Some (pos + n) else None.

(* while (again(n)) { pbump(step); n -= max; } *)
Fixpoint pbump_while (fuel : nat) (again : Z -> bool) (capacity step pos n : Z) : option (Z * Z) :=
  if again n then
    match fuel with
    | O => None
    | S fuel =>
      let? pos := pbump capacity pos step in
      pbump_while fuel again capacity step pos (n - int_max)
    end
  else Some (pos, n).

Section MemStream.
  Context {C : Type} (null : C).

  (* ---- BasicMemoryOutputStreambuf ---- *)

  (* pbase() is zero and epptr() is the size of the memory *)
  Record obuf := Obuf { o_mem : list C; o_pptr : Z; o_size_x : Z }.
  Definition capacity (s : obuf) : Z := Z.of_nat (length (o_mem s)).

  (* reset: memory_output_stream.hpp:296-311 *)
  Definition o_reset (memory : list C) (size : Z) : outcome (option obuf) :=
    let capacity := Z.of_nat (length memory) in
    if size <=? capacity then
      if int_greater t_size t_off capacity (imax t_off) then Throw None
      else
        let size_x := if capacity <? size then capacity else size in
        Done (Some (Obuf memory 0 size_x))
    else UB.

  (* get_size: 335-340, with get_pos: 456-460 *)
  Definition o_get_size (s : obuf) : Z := Z.max (o_size_x s) (o_pptr s).

  (* view: 343-347 *)
  Definition o_view (s : obuf) : list C := firstn (Z.to_nat (o_get_size s)) (o_mem s).

  (* update_and_get_size_x: 443-453 *)
  Definition update_and_get_size_x (s : obuf) : Z * obuf :=
    let pos := o_pptr s in
    let size := o_size_x s in
    if size <? pos then (pos, Obuf (o_mem s) (o_pptr s) pos) else (size, s).

  (* set_pos: 412-440 *)
  Definition o_set_pos (s : obuf) (pos : Z) : option obuf :=
    let orig_pos := o_pptr s in
    let? pptr :=
      (if orig_pos <=? pos then
         let inc := pos - orig_pos in
         let? (pptr, inc) := pbump_while (Z.to_nat (inc / int_max)) (fun n => int_max <=? n) (capacity s) int_max orig_pos inc in
         pbump (capacity s) pptr inc
       else
         let dec := orig_pos - pos in
         let? (pptr, dec) := pbump_while (Z.to_nat (dec / int_max)) (fun n => int_max <=? n) (capacity s) (- int_max) orig_pos dec in
         pbump (capacity s) pptr (- dec)) in
    Some (Obuf (o_mem s) pptr (o_size_x s)).

  (* seek: 385-409.  The result is the returned position. *)
  Definition o_seek (s : obuf) (pos : Z) : option (Z * obuf) :=
    if pos <=? capacity s then
      let (size, s) := update_and_get_size_x s in
      let? s :=
        (if size <=? pos then
           let? mem := fill_n (o_mem s) size (pos - size) null in
           Some (Obuf mem (o_pptr s) (o_size_x s))
         else Some s) in
      let? s := o_set_pos s pos in
      if can_int_cast t_off t_size pos && negb (wrap t_off pos =? -1) then Some (wrap t_off pos, s) else None
    else Some (-1, s).

  (* seekoff: 350-370 *)
  Definition o_seekoff (s : obuf) (off : Z) (dir : seekdir) (which_out : bool) : option (Z * obuf) :=
    if which_out then
      let pos := match dir with End => o_get_size s | Cur => o_pptr s | Beg => 0 end in
      let? (ok, pos) := try_int_add t_size t_off pos off in
      if (ok : bool) then o_seek s pos else Some (-1, s)
    else Some (-1, s).

  (* seekpos: 373-382 *)
  Definition o_seekpos (s : obuf) (pos : Z) (init_state which_out : bool) : option (Z * obuf) :=
    if init_state && which_out then
      let (ok, pos_2) := try_int_cast t_size t_off pos 0 in
      if (ok : bool) then o_seek s pos_2 else Some (-1, s)
    else Some (-1, s).

  (* std::basic_streambuf::sputc() with the default overflow(), which fails.  The result
     tells whether the character was stored. *)
  Definition o_sputc (s : obuf) (c : C) : option (bool * obuf) :=
    if o_pptr s <? capacity s then
      let? mem := set_nth (o_mem s) (Z.to_nat (o_pptr s)) c in
      Some (true, Obuf mem (o_pptr s + 1) (o_size_x s))
    else Some (false, s).

  (* std::basic_streambuf::sputn() with the default xsputn(): as if by repeated sputc().  The
     result is the number of characters written. *)
  Fixpoint o_sputn (s : obuf) (str : list C) : option (Z * obuf) :=
    match str with
    | [] => Some (0, s)
    | c :: str =>
      let? (ok, s) := o_sputc s c in
      if (ok : bool) then
        let? (n, s) := o_sputn s str in
        Some (n + 1, s)
      else Some (0, s)
    end.

  Inductive oop :=
  | Write (str : list C)
  | Oseekoff (off : Z) (dir : seekdir) (which_out : bool)
  | Oseekpos (pos : Z) (init_state which_out : bool).

  Definition o_step (s : obuf) (op : oop) : option (Z * obuf) :=
    match op with
    | Write str => o_sputn s str
    | Oseekoff off dir which => o_seekoff s off dir which
    | Oseekpos pos init which => o_seekpos s pos init which
    end.

  (* A sequence of operations and the returned values *)
  Fixpoint o_run (s : obuf) (ops : list oop) : option (list Z * obuf) :=
    match ops with
    | [] => Some ([], s)
    | op :: ops =>
      let? (r, s) := o_step s op in
      let? (rs, s) := o_run s ops in
      Some (r :: rs, s)
    end.

  (* ---- BasicMemoryInputStreambuf ---- *)

  (* eback() is zero and egptr() is the size of the memory *)
  Record ibuf := Ibuf { i_mem : list C; i_gptr : Z }.

  (* get_size: memory_input_stream.hpp:328-332 *)
  Definition i_get_size (s : ibuf) : Z := Z.of_nat (length (i_mem s)).

  (* reset: 227-240 *)
  Definition i_reset (memory : list C) : outcome (option ibuf) :=
    if int_greater t_size t_off (Z.of_nat (length memory)) (imax t_off) then Throw None
    else Done (Some (Ibuf memory 0)).

  (* view: 243-247 *)
  Definition i_view (s : ibuf) : list C := i_mem s.

  (* seek: 292-310, with set_pos: 313-318 *)
  Definition i_seek (s : ibuf) (pos : Z) : option (Z * ibuf) :=
    if pos <=? i_get_size s then
      let s := Ibuf (i_mem s) pos in
      if can_int_cast t_off t_size pos && negb (wrap t_off pos =? -1) then Some (wrap t_off pos, s) else None
    else Some (-1, s).

  (* seekoff: 257-277 *)
  Definition i_seekoff (s : ibuf) (off : Z) (dir : seekdir) (which_in : bool) : option (Z * ibuf) :=
    if which_in then
      let pos := match dir with End => i_get_size s | Cur => i_gptr s | Beg => 0 end in
      let? (ok, pos) := try_int_add t_size t_off pos off in
      if (ok : bool) then i_seek s pos else Some (-1, s)
    else Some (-1, s).

  (* seekpos: 280-289 *)
  Definition i_seekpos (s : ibuf) (pos : Z) (init_state which_in : bool) : option (Z * ibuf) :=
    if init_state && which_in then
      let (ok, pos_2) := try_int_cast t_size t_off pos 0 in
      if (ok : bool) then i_seek s pos_2 else Some (-1, s)
    else Some (-1, s).

  (* std::basic_streambuf::sbumpc() with the default uflow(), which fails; None in the
     result is end of file *)
  Definition i_sbumpc (s : ibuf) : option (option C * ibuf) :=
    if i_gptr s <? i_get_size s then
      let? c := nth_error (i_mem s) (Z.to_nat (i_gptr s)) in
      Some (Some c, Ibuf (i_mem s) (i_gptr s + 1))
    else Some (None, s).

  (* std::basic_streambuf::sgetn() with the default xsgetn(): as if by repeated sbumpc() *)
  Fixpoint i_sgetn (s : ibuf) (n : nat) : option (list C * ibuf) :=
    match n with
    | O => Some ([], s)
    | S n =>
      let? (c, s) := i_sbumpc s in
      match c with
      | Some c => let? (cs, s) := i_sgetn s n in Some (c :: cs, s)
      | None => Some ([], s)
      end
    end.

  (* std::basic_streambuf::sungetc() with the default pbackfail(), which fails *)
  Definition i_sungetc (s : ibuf) : option (option C * ibuf) :=
    if 0 <? i_gptr s then
      let? c := nth_error (i_mem s) (Z.to_nat (i_gptr s - 1)) in
      Some (Some c, Ibuf (i_mem s) (i_gptr s - 1))
    else Some (None, s).

  Inductive iop :=
  | Read (n : nat)
  | Unget
  | Iseekoff (off : Z) (dir : seekdir) (which_in : bool)
  | Iseekpos (pos : Z) (init_state which_in : bool).
  Inductive iresult :=
  | Chars (str : list C)
  | Char (c : option C)
  | Pos (pos : Z).

  Definition i_step (s : ibuf) (op : iop) : option (iresult * ibuf) :=
    match op with
    | Read n => let? (str, s) := i_sgetn s n in Some (Chars str, s)
    | Unget => let? (c, s) := i_sungetc s in Some (Char c, s)
    | Iseekoff off dir which => let? (pos, s) := i_seekoff s off dir which in Some (Pos pos, s)
    | Iseekpos pos init which => let? (pos, s) := i_seekpos s pos init which in Some (Pos pos, s)
    end.
  Fixpoint i_run (s : ibuf) (ops : list iop) : option (list iresult * ibuf) :=
    match ops with
    | [] => Some ([], s)
    | op :: ops =>
      let? (r, s) := i_step s op in
      let? (rs, s) := i_run s ops in
      Some (r :: rs, s)
    end.

  (* ---- BasicSeedMemoryStreambuf ---- *)

  (* can_alloc tells whether an array of the specified number of characters can be
     allocated.  is_eof tells whether the int_type value of a character is that of
     traits_type::eof(), which is possible for wide characters. *)
  Context (can_alloc : Z -> bool) (is_eof : C -> bool).

  (* A character of the memory is None if indeterminate.  s_block is the allocated array
     that m_memory points to, or None if m_memory is the seed memory.  s_live are the arrays
     that have been allocated and not been deleted, and s_next is the next one.  epptr() is
     the size of the memory. *)
  Record sbuf := Sbuf {
    s_mem : list (option C); s_pptr : Z; s_block : option nat; s_live : list nat; s_next : nat }.
  Definition s_capacity (s : sbuf) : Z := Z.of_nat (length (s_mem s)).

  (* constructor: seed_memory_output_stream.hpp:217-224 *)
  Definition s_make (seed_memory : list (option C)) : sbuf := Sbuf seed_memory 0 None [] 0.

  (* size: 241-245 and view: 248-252 *)
  Definition s_size (s : sbuf) : Z := s_pptr s.
  Definition s_view (s : sbuf) : list (option C) := firstn (Z.to_nat (s_size s)) (s_mem s).

  (* dealloc: 341-348.  Deleting an array that is not there is undefined behaviour. *)
  Definition dealloc (s : sbuf) : option sbuf :=
    match s_block s with
    | None => Some s
    | Some b =>
      if existsb (Nat.eqb b) (s_live s) then
        Some (Sbuf (s_mem s) (s_pptr s) (s_block s) (remove Nat.eq_dec b (s_live s)) (s_next s))
      else None
    end.

  (* do_reserve_extra: 322-338 *)
  Definition do_reserve_extra (s : sbuf) (min_extra_capacity : Z) : outcome sbuf :=
    let capacity := s_capacity s in
    let used_size := s_size s in
    match try_int_add t_size t_size used_size min_extra_capacity with
    | None => UB
    | Some (false, _) => Throw s
    | Some (true, min_capacity) =>
      match suggest_new_buffer_size 64 capacity min_capacity (imax t_size) with
      | None => UB
      | Some new_capacity =>
        if can_alloc new_capacity then
          let new_memory := repeat None (Z.to_nat new_capacity) in
          match copy_n (s_mem s) 0 used_size new_memory 0 with
          | None => UB
          | Some new_memory =>
            let b := s_next s in
            match dealloc (Sbuf (s_mem s) (s_pptr s) (s_block s) (b :: s_live s) (S b)) with
            | None => UB
            | Some s => Done (Sbuf new_memory used_size (Some b) (s_live s) (s_next s))
            end
          end
        else Throw s
      end
    end.

  (* reserve_extra: 255-262 *)
  Definition reserve_extra (s : sbuf) (min_extra_capacity : Z) : outcome sbuf :=
    let extra_capacity := s_capacity s - s_pptr s in
    if min_extra_capacity <=? extra_capacity then Done s
    else do_reserve_extra s min_extra_capacity.

  (* bump_put_ptr: 351-365.  The final iteration is outside of the loop. *)
  Definition bump_put_ptr (s : sbuf) (size : Z) : option sbuf :=
    let? (pptr, size_2) :=
      pbump_while (Z.to_nat (size / int_max)) (fun n => int_max <? n) (s_capacity s) int_max (s_pptr s) size in
    let? pptr := pbump (s_capacity s) pptr size_2 in
    Some (Sbuf (s_mem s) pptr (s_block s) (s_live s) (s_next s)).

  Definition with_mem (s : sbuf) (mem : list (option C)) : sbuf :=
    Sbuf mem (s_pptr s) (s_block s) (s_live s) (s_next s).

  (* append: 265-271.  The data is not in the memory of the stream. *)
  Definition append (s : sbuf) (data : list C) : outcome sbuf :=
    let size := Z.of_nat (length data) in
    match reserve_extra s size with
    | Done s =>
      match copy_n (map Some data) 0 size (s_mem s) (s_pptr s) with
      | Some mem => match bump_put_ptr (with_mem s mem) size with Some s => Done s | None => UB end
      | None => UB
      end
    | r => r
    end.

  (* append: 274-280 *)
  Definition append_fill (s : sbuf) (size : Z) (value : C) : outcome sbuf :=
    match reserve_extra s size with
    | Done s =>
      match fill_n (s_mem s) (s_pptr s) size (Some value) with
      | Some mem => match bump_put_ptr (with_mem s mem) size with Some s => Done s | None => UB end
      | None => UB
      end
    | r => r
    end.

  (* clear_contents: 283-288 *)
  Definition clear_contents (s : sbuf) : sbuf := Sbuf (s_mem s) 0 (s_block s) (s_live s) (s_next s).

  (* xsputn: 291-308, with the size of the string as the count, which is then not negative,
     and, being of type std::streamsize, less than the greatest value of type std::size_t, so
     that the loop is not entered *)
  Definition s_xsputn (s : sbuf) (str : list C) : outcome sbuf := append s str.

  (* overflow: 311-319.  None is traits_type::eof(). *)
  Definition overflow (s : sbuf) (ch : option C) : outcome sbuf :=
    match reserve_extra s 1 with
    | Done s =>
      match (match ch with
             | Some c => let? mem := set_nth (s_mem s) (Z.to_nat (s_pptr s)) (Some c) in Some (with_mem s mem)
             | None => Some s
             end) with
      | Some s =>
        match pbump (s_capacity s) (s_pptr s) 1 with
        | Some pptr => Done (Sbuf (s_mem s) pptr (s_block s) (s_live s) (s_next s))
        | None => UB
        end
      | None => UB
      end
    | r => r
    end.

  (* std::basic_streambuf::sputc() *)
  Definition s_sputc (s : sbuf) (c : C) : outcome sbuf :=
    if s_pptr s <? s_capacity s then
      match set_nth (s_mem s) (Z.to_nat (s_pptr s)) (Some c) with
      | Some mem => Done (Sbuf mem (s_pptr s + 1) (s_block s) (s_live s) (s_next s))
      | None => UB
      end
    else overflow s (if is_eof c then None else Some c).

  Inductive sop :=
  | Sputc (c : C)
  | Sputn (str : list C)
  | Append (str : list C)
  | AppendFill (n : Z) (c : C)
  | Reserve (n : Z)
  | Clear.

  Definition s_step (s : sbuf) (op : sop) : outcome sbuf :=
    match op with
    | Sputc c => s_sputc s c
    | Sputn str => s_xsputn s str
    | Append str => append s str
    | AppendFill n c => append_fill s n c
    | Reserve n => reserve_extra s n
    | Clear => Done (clear_contents s)
    end.

  (* A sequence of operations: for each of them, whether it threw; None is undefined
     behaviour *)
  Fixpoint s_run (s : sbuf) (ops : list sop) : option (list bool * sbuf) :=
    match ops with
    | [] => Some ([], s)
    | op :: ops =>
      match s_step s op with
      | Done s => let? (rs, s) := s_run s ops in Some (false :: rs, s)
      | Throw s => let? (rs, s) := s_run s ops in Some (true :: rs, s)
      | UB => None
      end
    end.

  (* destructor: 210-214 *)
  Definition s_destroy (s : sbuf) : option (list nat) := let? s := dealloc s in Some (s_live s).
End MemStream.
Arguments obuf : clear implicits.
Arguments ibuf : clear implicits.
Arguments sbuf : clear implicits.
Arguments oop : clear implicits.
Arguments sop : clear implicits.
Arguments iresult : clear implicits.
