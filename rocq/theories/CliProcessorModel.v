(* Model of the interpretation of command-line arguments (src/archon/cli/impl/processor.hpp).

   Characters are natural numbers, and arguments are lists of characters.  dash and equal
   are the widened characters '-' and '='.  The pattern matcher is the one of
   CliMatcherModel.v.  None stands for a failing assertion, an access outside of a vector or
   a string, an error in the matcher, or lack of fuel.  An option is given by its index in
   the specification.  Of an error, the error code, the index of the argument, which message
   it is, and the texts that go into it are modelled; quoting of those texts, and their being
   cut off at the maximum size, is not. *)
From Coq Require Import List Arith Bool ZArith.
From Verif Require Import CliPatternModel CliMatcherModel CliSpecModel ArrLib.
Import ListNotations.

(* ProcError: proc_error.hpp:39-59.  The last one is not used below (see CliRunModel.v). *)
Inductive proc_code := no_pattern_match | bad_option | bad_option_arg | bad_pattern_arg.

(* The messages: processor.hpp:193, 360, 364, 369, 377, 382, 388, 397, 402, 455, and, for the
   last one, pattern_args_parser.hpp:433.  A context is an argument, possibly together with
   the next one. *)
Definition context := (text * option text)%type.
Inductive proc_msg :=
| too_few
| unknown_option (form : text) | unknown_option_in (form : text) (c : context) | unknown_in_compound (form : text) (c : context)
| missing_arg (form : text) | missing_arg_in (form : text) (c : context)
| no_arg_allowed (value form : text) (c : context)
| mismatching (a : text) | extraneous (a : text)
| bad_arg (value form : text) (c : context)
| bad_value (value : text).
Record perror := Perror { er_arg : nat; er_code : proc_code; er_msg : proc_msg }.

(* OptionOccurrence: option_occurrence.hpp:31-42 *)
Record occurrence := Occurrence {
  oc_arg : nat; oc_has_value : bool; oc_lead_end : nat; oc_name_begin : nat; oc_name_end : nat; oc_value_begin : nat
}.
Definition no_occurrence : occurrence := Occurrence 0 false 0 0 0 0.

(* OptionInvocation: option_invocation.hpp:32-36 *)
Definition invocation := (nat * occurrence)%type.

(* The variables: processor.hpp:112-121, 163-173.  has_error, arg_1 and arg_2 are members, as
   are the occurrence and the matcher.  Errors are those added to the accumulator. *)
Record pstate := Pstate {
  v_arg_index : nat; v_match_error : bool; v_values : bool; v_offset : nat; v_in_pattern : bool; v_proto : nat;
  v_opt : option nat; v_has_error : bool; v_arg_1 : text; v_arg_2 : text; v_occ : occurrence; v_matcher : matcher;
  v_invocations : list invocation; v_errors : list perror
}.

Definition with_arg_index (v : pstate) (x : nat) : pstate :=
  Pstate x (v_match_error v) (v_values v) (v_offset v) (v_in_pattern v) (v_proto v) (v_opt v) (v_has_error v) (v_arg_1 v)
    (v_arg_2 v) (v_occ v) (v_matcher v) (v_invocations v) (v_errors v).
Definition with_match_error (v : pstate) : pstate :=
  Pstate (v_arg_index v) true (v_values v) (v_offset v) (v_in_pattern v) (v_proto v) (v_opt v) (v_has_error v) (v_arg_1 v)
    (v_arg_2 v) (v_occ v) (v_matcher v) (v_invocations v) (v_errors v).
Definition with_values (v : pstate) : pstate :=
  Pstate (v_arg_index v) (v_match_error v) true (v_offset v) (v_in_pattern v) (v_proto v) (v_opt v) (v_has_error v) (v_arg_1 v)
    (v_arg_2 v) (v_occ v) (v_matcher v) (v_invocations v) (v_errors v).
Definition with_offset (v : pstate) (x : nat) : pstate :=
  Pstate (v_arg_index v) (v_match_error v) (v_values v) x (v_in_pattern v) (v_proto v) (v_opt v) (v_has_error v) (v_arg_1 v)
    (v_arg_2 v) (v_occ v) (v_matcher v) (v_invocations v) (v_errors v).
Definition with_option (v : pstate) (proto : nat) (opt : option nat) (in_pattern : bool) : pstate :=
  Pstate (v_arg_index v) (v_match_error v) (v_values v) (v_offset v) in_pattern proto opt (v_has_error v) (v_arg_1 v)
    (v_arg_2 v) (v_occ v) (v_matcher v) (v_invocations v) (v_errors v).
Definition with_arg_1 (v : pstate) (x : text) : pstate :=
  Pstate (v_arg_index v) (v_match_error v) (v_values v) (v_offset v) (v_in_pattern v) (v_proto v) (v_opt v) (v_has_error v) x
    (v_arg_2 v) (v_occ v) (v_matcher v) (v_invocations v) (v_errors v).
Definition with_arg_2 (v : pstate) (x : text) : pstate :=
  Pstate (v_arg_index v) (v_match_error v) (v_values v) (v_offset v) (v_in_pattern v) (v_proto v) (v_opt v) (v_has_error v) (v_arg_1 v)
    x (v_occ v) (v_matcher v) (v_invocations v) (v_errors v).
Definition with_occ (v : pstate) (x : occurrence) : pstate :=
  Pstate (v_arg_index v) (v_match_error v) (v_values v) (v_offset v) (v_in_pattern v) (v_proto v) (v_opt v) (v_has_error v) (v_arg_1 v)
    (v_arg_2 v) x (v_matcher v) (v_invocations v) (v_errors v).
Definition with_matcher (v : pstate) (x : matcher) : pstate :=
  Pstate (v_arg_index v) (v_match_error v) (v_values v) (v_offset v) (v_in_pattern v) (v_proto v) (v_opt v) (v_has_error v) (v_arg_1 v)
    (v_arg_2 v) (v_occ v) x (v_invocations v) (v_errors v).
Definition push_invocation (v : pstate) (x : invocation) : pstate :=
  Pstate (v_arg_index v) (v_match_error v) (v_values v) (v_offset v) (v_in_pattern v) (v_proto v) (v_opt v) (v_has_error v) (v_arg_1 v)
    (v_arg_2 v) (v_occ v) (v_matcher v) (v_invocations v ++ [x]) (v_errors v).

(* error: processor.hpp:531-536, with ErrorAccum::add_error, error_accum.hpp:81-88 *)
Definition add_error (v : pstate) (arg_index : nat) (c : proc_code) (m : proc_msg) : pstate :=
  Pstate (v_arg_index v) (v_match_error v) (v_values v) (v_offset v) (v_in_pattern v) (v_proto v) (v_opt v) true (v_arg_1 v)
    (v_arg_2 v) (v_occ v) (v_matcher v) (v_invocations v) (v_errors v ++ [Perror arg_index c m]).

Definition ok {A} (o : outcome A) : option A := match o with Ok a => Some a | _ => None end.

(* std::basic_string_view::substr(), which throws if the position is beyond the end *)
Definition substr (t : text) (pos size : nat) : option text :=
  if pos <=? length t then Some (firstn size (skipn pos t)) else None.

(* build_opt_form: processor.hpp:491-504.  The text before it is quoted. *)
Definition build_opt_form (v : pstate) : option text :=
  let name_size := oc_name_end (v_occ v) - oc_name_begin (v_occ v) in
  let? opt_lead := substr (v_arg_1 v) 0 (oc_lead_end (v_occ v)) in
  let? opt_name := substr (v_arg_1 v) (oc_name_begin (v_occ v)) name_size in
  Some (opt_lead ++ opt_name).

(* build_opt_context: processor.hpp:508-527 *)
Definition build_opt_context (v : pstate) : context :=
  let has_2nd_arg := oc_has_value (v_occ v) && (oc_value_begin (v_occ v) =? 0) in
  if negb has_2nd_arg then (v_arg_1 v, None) else (v_arg_1 v, Some (v_arg_2 v)).

(* std::find() from an offset *)
Fixpoint find_from (t : text) (c : nat) (i : nat) : nat :=
  match t with
  | [] => i
  | d :: t => if d =? c then i else find_from t c (S i)
  end.

(* The labels of process(): processor.hpp:183-418.  pat is passed along with the label. *)
Inductive plabel :=
| next_arg_1 | next_arg_2 | maybe_short_form_continuation | short_form_option | long_form_option | option_without_arg
| option_with_arg | l_invoke (pat : nat) | l_deleg (pat : nat) | l_unknown_option | l_missing_option_arg | l_no_option_arg_allowed
| rejected_pattern_arg | pattern_match_error | l_error.

(* What process() returns: processor.hpp:81-95, 320-322, 340-353, 420.  The action of a
   short-circuit option is invoked at the very end. *)
Inductive poutcome :=
| RShorted (opt : nat) | RInvoke (pat : nat) | RDeleg (pat : nat) (deleg_args_offset : nat) | RFailed.

Section Process.
  Variable dash equal : nat.
  Variable s : spec.
  Variable args : list text.

  (* unpack_option: processor.hpp:480-487 *)
  Definition unpack_option (v : pstate) (proto_index : nat) : option pstate :=
    let? p := nth_error (k_protos s) proto_index in
    let opt_in_pattern := match pr_pattern p with Some _ => true | None => false end in
    match pr_option p with
    | Some option_index =>
      let? _ := nth_error (k_options s) option_index in
      Some (with_option v proto_index (Some option_index) opt_in_pattern)
    | None => Some (with_option v proto_index None opt_in_pattern)
    end.

  Definition opt_spec (v : pstate) : option (option optspec) :=
    match v_opt v with
    | None => Some None
    | Some i => let? o := nth_error (k_options s) i in Some (Some o)
    end.
  Definition allows (o : option optspec) : bool := match o with Some o => ar_allow (o_arg o) | None => false end.
  Definition requires (o : option optspec) : bool := match o with Some o => ar_require (o_arg o) | None => false end.

  Definition set_name (c : occurrence) (b e : nat) : occurrence :=
    Occurrence (oc_arg c) (oc_has_value c) (oc_lead_end c) b e (oc_value_begin c).
  Definition set_value (c : occurrence) (b : nat) : occurrence :=
    Occurrence (oc_arg c) true (oc_lead_end c) (oc_name_begin c) (oc_name_end c) b.
  Definition set_has_value (c : occurrence) : occurrence :=
    Occurrence (oc_arg c) true (oc_lead_end c) (oc_name_begin c) (oc_name_end c) (oc_value_begin c).

  (* OptionAction::invoke_without_arg(), of which it is modelled whether it can be called at
     all.  The action that requires an argument is OptionAssignAction, where the function
     asserts that it is not reached: option_action.hpp:176-184.  For the others, see
     119-121, 253-256, 315-318, 369-372. *)
  Definition invoke_without_arg (act : action) : option unit := if ac_require act then None else Some tt.

  (* One jump in process(), or the return from it: processor.hpp:185-421 *)
  Definition pstep (l : plabel) (v : pstate) : option (plabel * pstate + poutcome * pstate) :=
    match l with
    | next_arg_1 => Some (inl (next_arg_2, with_arg_index v (S (v_arg_index v))))
    | next_arg_2 =>                                                        (* 188-247 *)
      let at_end := v_arg_index v =? length args in
      let parse_arg :=                                                     (* 214-247 *)
        let? a := nth_error args (v_arg_index v) in
        let v := with_arg_1 v a in
        let? is_opt :=
          (if negb (v_values v) && (2 <=? length a) then let? c := nth_error a 0 in Some (c =? dash) else Some false) in
        if is_opt then
          let? c := nth_error a 1 in
          if c =? dash then
            Some (inl (long_form_option, with_offset (with_occ v (Occurrence (v_arg_index v) false 2 0 0 0)) 2))
          else
            Some (inl (short_form_option, with_offset (with_occ v (Occurrence (v_arg_index v) false 1 0 0 0)) 1))
        else if negb (v_match_error v) then
          let? (v, consumed) :=
            (if negb (v_values v) then
               match find_keyword s a with
               | Some keyword_index =>
                 let? (m, b) := ok (consume (v_matcher v) (Psym s_keyword keyword_index) (v_arg_index v)) in
                 Some (with_matcher v m, b)
               | None => Some (v, false)
               end
             else Some (v, false)) in
          if consumed : bool then Some (inl (next_arg_1, v))
          else
            let? (m, b) := ok (consume (v_matcher v) (Psym s_value_slot 0) (v_arg_index v)) in
            if b : bool then Some (inl (next_arg_1, with_matcher v m))
            else Some (inl (rejected_pattern_arg, with_offset (with_matcher v m) (length a)))
        else Some (inl (next_arg_1, v)) in
      if negb (v_match_error v) then
        let? o := ok (is_match (v_matcher v)) in
        match o with
        | None =>
          if at_end then Some (inl (l_error, with_match_error (add_error v (v_arg_index v) no_pattern_match too_few)))
          else parse_arg
        | Some pat =>
          let? is_deleg := nth_error (m_delegs (v_matcher v)) pat in
          if is_deleg : bool then Some (inl (l_deleg pat, v))
          else if at_end then
            if negb (v_has_error v) then Some (inl (l_invoke pat, v)) else Some (inl (l_error, v))
          else parse_arg
        end
      else if negb (v_has_error v) then None
      else if at_end then Some (inl (l_error, v))
      else parse_arg
    | maybe_short_form_continuation =>                                     (* 249-251 *)
      if v_offset v =? length (v_arg_1 v) then Some (inl (next_arg_1, v)) else Some (inl (short_form_option, v))
    | short_form_option =>                                                 (* 253-280 *)
      let v := with_occ v (set_name (v_occ v) (v_offset v) (v_offset v + 1)) in
      let v := with_offset v (oc_name_end (v_occ v)) in
      let? c := nth_error (v_arg_1 v) (oc_name_begin (v_occ v)) in
      match find_short s c with
      | Some proto_index =>
        let? v := unpack_option v proto_index in
        let? o := opt_spec v in
        if negb (allows o) then
          let? plain :=
            (if v_offset v =? length (v_arg_1 v) then Some true
             else let? c := nth_error (v_arg_1 v) (v_offset v) in Some (negb (c =? dash))) in
          if plain : bool then Some (inl (option_without_arg, v)) else Some (inl (l_no_option_arg_allowed, v))
        else if v_offset v <? length (v_arg_1 v) then
          Some (inl (option_with_arg, with_occ v (set_value (v_occ v) (v_offset v))))
        else if negb (requires o) then Some (inl (option_without_arg, v))
        else if negb (v_arg_index v =? length args - 1) then
          Some (inl (option_with_arg, with_occ (with_arg_index v (S (v_arg_index v))) (set_has_value (v_occ v))))
        else Some (inl (l_missing_option_arg, v))
      | None => Some (inl (l_unknown_option, v))
      end
    | long_form_option =>                                                  (* 282-314 *)
      let name_end := find_from (skipn (v_offset v) (v_arg_1 v)) equal (v_offset v) in
      let v := with_occ v (set_name (v_occ v) (v_offset v) name_end) in
      let v := with_offset v name_end in
      let? name := substr (v_arg_1 v) (oc_name_begin (v_occ v)) (oc_name_end (v_occ v) - oc_name_begin (v_occ v)) in
      match find_long s name with
      | Some proto_index =>
        let? v := unpack_option v proto_index in
        let? o := opt_spec v in
        if v_offset v <? length (v_arg_1 v) then
          let? c := nth_error (v_arg_1 v) (v_offset v) in
          if negb (c =? equal) then None
          else
            let v := with_offset v (S (v_offset v)) in
            if allows o then Some (inl (option_with_arg, with_occ v (set_value (v_occ v) (v_offset v))))
            else Some (inl (l_no_option_arg_allowed, v))
        else if negb (requires o) then Some (inl (option_without_arg, v))
        else if negb (v_arg_index v =? length args - 1) then
          Some (inl (option_with_arg, with_occ (with_arg_index v (S (v_arg_index v))) (set_has_value (v_occ v))))
        else Some (inl (l_missing_option_arg, v))
      | None => Some (inl (l_unknown_option, v))
      end
    | option_without_arg =>                                                (* 316-332 *)
      let in_pattern (v : pstate) :=
        if v_in_pattern v && negb (v_match_error v) then
          let? (m, b) := ok (consume (v_matcher v) (Psym s_proto_option (v_proto v)) (v_arg_index v)) in
          if b : bool then Some (inl (maybe_short_form_continuation, with_matcher v m))
          else Some (inl (rejected_pattern_arg, with_matcher v m))
        else Some (inl (maybe_short_form_continuation, v)) in
      match v_opt v with
      | Some i =>
        let? o := nth_error (k_options s) i in
        if has_attr (o_attr o) short_circuit then
          let? _ := invoke_without_arg (o_action o) in Some (inr (RShorted i, v))
        else
          let v := push_invocation v (i, v_occ v) in
          in_pattern (if has_attr (o_attr o) further_args_are_values then with_values v else v)
      | None => in_pattern v
      end
    | option_with_arg =>                                                   (* 334-338 *)
      let? i := v_opt v in
      if v_in_pattern v then None
      else Some (inl (next_arg_1, push_invocation v (i, v_occ v)))
    | l_invoke pat => if v_match_error v then None else Some (inr (RInvoke pat, v))
    | l_deleg pat => if v_match_error v then None else Some (inr (RDeleg pat (v_arg_index v), v))
    | l_unknown_option =>                                                  (* 355-371 *)
      let v := with_offset v (length (v_arg_1 v)) in
      let? form := build_opt_form v in
      if oc_name_begin (v_occ v) =? oc_lead_end (v_occ v) then
        if v_offset v =? length (v_arg_1 v) then
          Some (inl (pattern_match_error, add_error v (v_arg_index v) bad_option (unknown_option form)))
        else
          Some (inl (pattern_match_error,
            add_error v (v_arg_index v) bad_option (unknown_option_in form (build_opt_context v))))
      else
        Some (inl (pattern_match_error,
          add_error v (v_arg_index v) bad_option (unknown_in_compound form (build_opt_context v))))
    | l_missing_option_arg =>                                              (* 373-384 *)
      let? form := build_opt_form v in
      if (oc_name_begin (v_occ v) =? oc_lead_end (v_occ v)) && (v_offset v =? length (v_arg_1 v)) then
        Some (inl (next_arg_1, add_error v (v_arg_index v) bad_option (missing_arg form)))
      else
        Some (inl (next_arg_1, add_error v (v_arg_index v) bad_option (missing_arg_in form (build_opt_context v))))
    | l_no_option_arg_allowed =>                                           (* 386-391 *)
      let? value := substr (v_arg_1 v) (v_offset v) (length (v_arg_1 v)) in
      let? form := build_opt_form v in
      Some (inl (next_arg_1,
        add_error v (v_arg_index v) bad_option (no_arg_allowed value form (build_opt_context v))))
    | rejected_pattern_arg =>                                              (* 393-404 *)
      if v_match_error v then None
      else
        let? b := ok (can_consume (v_matcher v)) in
        Some (inl (pattern_match_error,
          add_error v (v_arg_index v) no_pattern_match
            (if b : bool then mismatching (v_arg_1 v) else extraneous (v_arg_1 v))))
    | pattern_match_error =>                                               (* 406-416 *)
      let? b := ok (can_delegate (v_matcher v)) in
      if negb b then Some (inl (maybe_short_form_continuation, with_match_error v))
      else Some (inl (l_error, v))
    | l_error => if negb (v_has_error v) then None else Some (inr (RFailed, v))
    end.

  Fixpoint prun (fuel : nat) (l : plabel) (v : pstate) : option (poutcome * pstate) :=
    match fuel with
    | O => None
    | S fuel =>
      let? x := pstep l v in
      match x with
      | inl (l, v) => prun fuel l v
      | inr r => Some r
      end
    end.

  (* The processor after construction: processor.hpp:139-156 *)
  Definition new_processor (args_offset : nat) (parent_has_error : bool) (m : matcher) : pstate :=
    Pstate args_offset false false 0 false 0 None parent_has_error [] [] no_occurrence m [] [].

  (* process: processor.hpp:160-421 *)
  Definition process (fuel : nat) (args_offset : nat) (parent_has_error : bool) (m : matcher) : option (poutcome * pstate) :=
    if args_offset <=? length args then prun fuel next_arg_2 (new_processor args_offset parent_has_error m) else None.

  (* What is done about the options: the action of an option is invoked, with the given
     argument, if any.  The second function tells whether the argument was accepted. *)
  Variable accepts : nat -> text -> bool.
  Definition performed := (nat * option text)%type.

  (* invoke_options: processor.hpp:425-458.  The list in front is what was invoked. *)
  Fixpoint invoke_options (v : pstate) (invocations : list invocation) : option (list performed * pstate) :=
    match invocations with
    | [] => Some ([], v)
    | (i, occ) :: invocations =>
      let? o := nth_error (k_options s) i in
      if negb (oc_has_value occ) then
        let? _ := invoke_without_arg (o_action o) in
        let? (l, v) := invoke_options v invocations in
        Some ((i, None) :: l, v)
      else if length args <=? oc_arg occ then None
      else
        let has_2nd_arg := oc_value_begin occ =? 0 in
        let? (v, value) :=
          (if negb has_2nd_arg then
             let? a := nth_error args (oc_arg occ) in
             let v := with_arg_1 v a in
             let? value := substr a (oc_value_begin occ) (length a) in
             Some (v, value)
           else
             let? b := nth_error args (oc_arg occ + 1) in
             Some (with_arg_2 v b, b)) in
        let? v :=
          (if accepts i value then Some v
           else
             let v := with_occ v occ in
             let? v := (if has_2nd_arg then let? a := nth_error args (oc_arg occ) in Some (with_arg_1 v a) else Some v) in
             let? form := build_opt_form v in
             Some (add_error v (oc_arg occ) bad_option_arg (bad_arg value form (build_opt_context v)))) in
        let? (l, v) := invoke_options v invocations in
        Some ((i, Some value) :: l, v)
    end.
End Process.
