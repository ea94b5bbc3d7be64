(* Model of how the arguments of the command line are taken over (src/archon/cli/impl/root_state.hpp),
   and of the accumulation of errors (src/archon/cli/impl/error_accum.hpp).

   Characters are natural numbers.  Buffers hold what was written to them (their memory is
   modelled in BufferModel.v), and allocation does not fail. *)
From Coq Require Import List Arith Bool ZArith.
From Verif Require Import CliSpecModel CliProcessorModel ArrLib.
Import ListNotations.

(* What set_args() ends with.  The last one is a failing assertion, or an access outside of a
   string or slab. *)
Inductive taken (A : Type) := Taken (a : A) | TooFew | CodecError | TakenBad.
Arguments Taken {A}. Arguments TooFew {A}. Arguments CodecError {A}. Arguments TakenBad {A}.
Definition get_taken {A} (x : option A) : taken A := match x with Some a => Taken a | None => TakenBad end.

(* A string view: the string that it refers to, where it begins, and its size.  The string is
   one of those that argv refers to, or one that is held by a string holder. *)
Inductive owner := Argv (i : nat) | Held (i : nat).
Record view := View { vw_owner : owner; vw_begin : nat; vw_size : nat }.

(* std::basic_string_view::substr(), for a view of the whole of a string of the specified size:
   an exception is not expected, and the size is clamped. *)
Definition substr (o : owner) (total begin size : nat) : option view :=
  if begin <=? total then Some (View o begin (min size (total - begin))) else None.

(* core::Slab::add(): core/memory.hpp:603-610.  The capacity may not be exceeded. *)
Definition slab_add (capacity : nat) (args : list view) (x : view) : option (list view) :=
  if length args <? capacity then Some (args ++ [x]) else None.

(* state of set_args(): root_state.hpp:126-128, 160-162, and the string holder (string_holder.hpp:49-50) *)
Record rstate := Rstate { r_holder : list text; r_buffer : list nat; r_ends : list nat; r_args : list view }.

(* the soft limits: root_state.hpp:141, 175 *)
Definition soft_limit : Z := 8192.

Section SetArgs.
  (* BasicTextCodec::decode_a(), None for an exception.  When the codec is degenerate, it is
     not used, and decode is the identity. *)
  Variable decode : text -> option text.
  Variable capacity : nat.

  (* the loop in flush: root_state.hpp:132-137, 166-171.  (end - begin) wraps in the code; here,
     a negative difference is an error. *)
  Fixpoint flush_views (o : owner) (total begin : nat) (ends : list nat) (args : list view) : option (list view) :=
    match ends with
    | [] => Some args
    | e :: ends =>
      if begin <=? e then
        let? x := substr o total begin (e - begin) in
        let? args := slab_add capacity args x in
        flush_views o total e ends args
      else None
    end.

  (* flush: root_state.hpp:129-140, 163-174.  BasicStringHolder::add_encoded() and add():
     string_holder.hpp:67-88 *)
  Definition flush (r : rstate) : option rstate :=
    if length (r_buffer r) =? 0 then None else
    let o := Held (length (r_holder r)) in
    let? args := flush_views o (length (r_buffer r)) 0 (r_ends r) (r_args r) in
    Some (Rstate (r_holder r ++ [r_buffer r]) [] [] args).

  (* the loop: root_state.hpp:142-150, 176-184 *)
  Fixpoint add_args (argv : list text) (r : rstate) : taken rstate :=
    match argv with
    | [] => Taken r
    | arg :: argv =>
      match decode arg with
      | None => CodecError
      | Some x =>
        let buffer := r_buffer r ++ x in
        let r := Rstate (r_holder r) buffer (r_ends r ++ [length buffer]) (r_args r) in
        if (soft_limit <? Z.of_nat (length buffer))%Z then
          match flush r with
          | Some r => add_args argv r
          | None => TakenBad
          end
        else add_args argv r
      end
    end.
End SetArgs.

(* the case where arguments are copied by reference: root_state.hpp:119-124 *)
Fixpoint refer_args (capacity i : nat) (argv : list text) (args : list view) : option (list view) :=
  match argv with
  | [] => Some args
  | arg :: argv =>
    let? args := slab_add capacity args (View (Argv i) 0 (length arg)) in
    refer_args capacity (S i) argv args
  end.

(* set_args: root_state.hpp:98-189.  argc is the size of argv, but it may be negative, in which
   case there is no argv.  degen is text_codec_type::is_degen, and holder is what is held by the
   string holder, if one was specified (None otherwise: 118, 192-198; in which case there is one
   that is empty).  The result is what is held, and the arguments. *)
Definition set_args (degen : bool) (decode : text -> option text) (holder : option (list text)) (argc : Z) (argv : list text) :
  taken (list text * list view) :=
  if (argc <? 1)%Z then TooFew else
  let num_args := Z.to_nat argc in
  let finish (holder : list text) (args : list view) :=
    if length args =? num_args then Taken (holder, args) else TakenBad in
  let by_value (decode : text -> option text) (holder : list text) :=
    match add_args decode num_args argv (Rstate holder [] [] []) with
    | Taken r =>
      if length (r_ends r) =? 0 then finish (r_holder r) (r_args r) else
      match flush num_args r with
      | Some r => finish (r_holder r) (r_args r)
      | None => TakenBad
      end
    | TooFew => TooFew | CodecError => CodecError | TakenBad => TakenBad
    end in
  if degen then
    match holder with
    | None =>
      match refer_args num_args 0 argv [] with
      | Some args => finish [] args
      | None => TakenBad
      end
    | Some holder => by_value Some holder
    end
  else by_value decode (match holder with Some holder => holder | None => [] end).

(* ---- error_accum.hpp ---- *)

(* ErrorAccum: error_accum.hpp:57-58, 80-84.  The code of an error is left as it is, and the
   message is a text, after formatting. *)
Record accum := Accum { ea_messages : list nat; ea_entries : list (nat * proc_code * nat) }.

(* constructor: error_accum.hpp:72-76 *)
Definition accum_new : accum := Accum [] [].

(* add_error: error_accum.hpp:89-95 *)
Definition add_error (a : accum) (arg_index : nat) (code : proc_code) (message : text) : accum :=
  let messages := ea_messages a ++ message in
  Accum messages (ea_entries a ++ [(arg_index, code, length messages)]).

(* the loop in get_errors: error_accum.hpp:103-109.  The difference wraps in the code; here, a
   negative one is an error, and so is an offset outside of the messages. *)
Fixpoint get_entries (messages : list nat) (offset : nat) (entries : list (nat * proc_code * nat)) :
  option (list (nat * proc_code * text)) :=
  match entries with
  | [] => Some []
  | (arg_index, code, e) :: entries =>
    if (offset <=? e) && (offset <=? length messages) then
      let? l := get_entries messages e entries in
      Some ((arg_index, code, firstn (e - offset) (skipn offset messages)) :: l)
    else None
  end.

(* get_errors: error_accum.hpp:98-110 *)
Definition get_errors (a : accum) (errors : list (nat * proc_code * text)) : option (list (nat * proc_code * text)) :=
  let? l := get_entries (ea_messages a) 0 (ea_entries a) in
  Some (errors ++ l).
