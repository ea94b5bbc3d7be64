(* Model of command-line processing as a whole (src/archon/cli/processor.hpp, command_line.hpp):
   the options are performed, the function of the matched pattern is called, or the errors are
   reported, and processing can be delegated to another processor.

   What actions are called with is modelled, but not what they do in turn.  Err stands for an
   exception thrown by the matcher, and Bad for a failing assertion, an access outside of a
   vector, or lack of fuel.  There are two kinds of fuel: one for the construction of the
   matcher, and one for the rest.  Exit statuses are those that functions return, except
   that they are EXIT_SUCCESS after a short-circuit option (processor.hpp:461), and whatever
   the error handler says (EXIT_FAILURE by default) after errors (732-742). *)
From Coq Require Import List Arith Bool ZArith.
From Verif Require Import CliPatternModel CliSpecModel CliMatcherModel CliParserModel CliBuildModel CliProcessorModel CliArgsModel ArrLib.
Import ListNotations.

(* The action of a pattern: NullPatternAction (processor.hpp:333-356), FuncExecPatternAction
   and DelegPatternAction (pattern_action.hpp:139-211).  Of the function, the types of the
   parameters are known. *)
Inductive paction := PNull | PFunc (ts : ptypes) | PDeleg.

(* BasicProcessor, after construction: processor.hpp:294-302.  There is an action and a set of
   attributes for each pattern.  c_accepts tells whether an argument is accepted by the action
   of an option, and c_parses whether it can be parsed as a value of a certain type. *)
Record command := Command {
  c_spec : spec; c_st : structure; c_patterns : list (nat * bool); c_actions : list (paction * Z); c_config : mconfig;
  c_accepts : nat -> text -> bool; c_parses : ptype -> text -> bool
}.

(* BasicCommandLine::Parent: command_line.hpp:104-110.  The text of the pattern is left out.
   The command line of the parent is the rest of the list in which the parent is. *)
Record ancestor := Ancestor { a_command : command; a_invocations : list invocation; a_errors : list perror; a_has_error : bool }.

(* BasicCommandLine: command_line.hpp:76-80.  Parents are innermost first. *)
Record line := Line { l_parents : list ancestor; l_offset : nat }.

(* the constructor for the root: command_line.hpp:149-155 *)
Definition root_line : line := Line [] 1.

(* the constructor used in case of delegation: command_line.hpp:158-164, processor.hpp:449-457 *)
Definition deleg_line (ln : line) (a : ancestor) (args_offset : nat) : option line :=
  if l_offset ln <=? args_offset then Some (Line (a :: l_parents ln) args_offset) else None.

(* what processing ends with *)
Inductive ending :=
| ECalled (pat : nat) (values : list parg) (complete : bool)    (* the function was called; processing is complete *)
| EDelegated (pat : nat) (ln : line)                            (* the function was called with a new command line *)
| EShorted (opt : nat)                                          (* the action of a short-circuit option was invoked *)
| EErrors (errors : list perror).                               (* the error handler was called *)

(* std::stable_sort() by argument index: processor.hpp:729-731 *)
Fixpoint sort_insert (e : perror) (l : list perror) : list perror :=
  match l with
  | [] => [e]
  | e' :: l' => if er_arg e <=? er_arg e' then e :: l else e' :: sort_insert e l'
  end.
Definition stable_sort (l : list perror) : list perror := fold_right sort_insert [] l.

(* gather_errors: processor.hpp:746-754 *)
Fixpoint gather_errors (parents : list ancestor) (own : list perror) : list perror :=
  match parents with
  | [] => own
  | a :: parents => gather_errors parents (a_errors a) ++ own
  end.

(* report_errors: processor.hpp:724-743.  What is passed to the error handler. *)
Definition report_errors (ln : line) (own : list perror) : list perror := stable_sort (gather_errors (l_parents ln) own).

(* what a pattern action adds to the error accumulator: pattern_args_parser.hpp:431-434 *)
Definition pattern_arg_error (e : parse_error) : perror := Perror (fst e) bad_pattern_arg (bad_value (snd e)).

Section Run.
  Variable dash equal : nat.
  Variable args : list text.

  (* invoke_options: processor.hpp:757-765.  What was invoked goes with the number of levels
     above the level of the option.  The action of an option is a reference: it is that of the
     processor that the option belongs to. *)
  Fixpoint invoke_all (parents : list ancestor) (c : command) (v : pstate) (invocations : list invocation) :
    option (list (nat * performed) * pstate) :=
    match parents with
    | [] =>
      let? (l, v) := invoke_options (c_spec c) args (c_accepts c) v invocations in
      Some (map (pair 0) l, v)
    | a :: parents' =>
      let? (l, v) := invoke_all parents' (a_command a) v (a_invocations a) in
      let? (l', v) := invoke_options (c_spec c) args (c_accepts c) v invocations in
      Some (l ++ map (pair (length parents)) l', v)
    end.

  (* invoke: pattern_action.hpp:111-117, 161-181, processor.hpp:352-355.  What the function is
     called with, if it is called, and what is added to the error accumulator. *)
  Definition invoke_action (c : command) (act : paction) (has_error : bool) (descs : list desc) :
    option (option (list parg) * list perror) :=
    match act with
    | PNull => Some (if negb has_error then Some [] else None, [])
    | PFunc ts =>
      let? (call, errors) := invoke (c_st c) args (c_parses c) ts has_error descs in
      Some (call, map pattern_arg_error errors)
    | PDeleg => None
    end.

  (* deleg: pattern_action.hpp:120-125, 204-207 *)
  Definition can_deleg (act : paction) : bool := match act with PDeleg => true | _ => false end.

  (* process and do_process: processor.hpp:411-469, 670-708, and generate_descs:
     impl/processor.hpp:461-469.  The list in front is what was invoked of options. *)
  Definition run (fuel fuel2 : nat) (c : command) (ln : line) : outcome (list (nat * performed) * ending) :=
    let has_error := match l_parents ln with [] => false | a :: _ => a_has_error a end in
    let! m := make_matcher fuel (c_st c) (c_patterns c) (length args) (c_config c) in
    let! (r, v) := get (process dash equal (c_spec c) args fuel2 (l_offset ln) has_error m) in
    match r with
    | RShorted opt => Ok ([], EShorted opt)
    | RDeleg pat args_offset =>
      let! (act, attr) := get (nth_error (c_actions c) pat) in
      let! ln' := get (deleg_line ln (Ancestor c (v_invocations v) (v_errors v) (v_has_error v)) args_offset) in
      if can_deleg act then Ok ([], EDelegated pat ln') else Bad
    | RFailed =>
      let! (l, v) := get (invoke_all (l_parents ln) c v (v_invocations v)) in
      if v_has_error v then Ok (l, EErrors (report_errors ln (v_errors v))) else Bad
    | RInvoke pat =>
      let! (l, v) := get (invoke_all (l_parents ln) c v (v_invocations v)) in
      let! (k, _) := get (nth_error (c_patterns c) pat) in
      let! (act, attr) := get (nth_error (c_actions c) pat) in
      let! mps := backtrack (v_matcher v) in
      let! descs := get (generate_descs (c_st c) fuel2 k mps) in
      let! (call, errors) := get (invoke_action c act (v_has_error v) descs) in
      match call with
      | Some values => Ok (l, ECalled pat values (negb (Z.land attr completing =? 0)%Z))
      | None => Ok (l, EErrors (report_errors ln (v_errors v ++ errors)))
      end
    end.
End Run.

(* ---- construction ---- *)

(* An entry of the specification: the pattern, its attributes, and its action *)
Record entry := Entry { en_pattern : text; en_attr : Z; en_action : paction }.

(* add_pattern: processor.hpp (cli) 632-646, and check() of the actions: processor.hpp:347-350,
   pattern_action.hpp:156-159.  An assertion that fails during the check counts as the check
   being unsuccessful; it is proved that none does (check_exact). *)
Definition entry_decl (e : entry) : pattern_decl :=
  Pattern_decl (en_pattern e) (en_attr e) (can_deleg (en_action e))
    (fun st k => match en_action e with
                 | PNull => true
                 | PFunc ts => match check st ts k with Some true => true | _ => false end
                 | PDeleg => false
                 end).

Section Construct.
  Variable alnum : nat -> bool.
  Variable narrow : nat -> nat.

  (* constructor: processor.hpp:545-664.  In case of no patterns, there is one for the empty
     pattern with the null action, and without attributes (650-661). *)
  Definition construct (fuel : nat) (options : list option_decl) (entries : list entry) (config : mconfig)
    (accepts : nat -> text -> bool) (parses : ptype -> text -> bool) : presult command :=
    let* (st, s, ps) := build alnum narrow fuel options (map entry_decl entries) in
    POk (Command s st ps
      (match entries with [] => [(PNull, 0%Z)] | _ => map (fun e => (en_action e, en_attr e)) entries end)
      config accepts parses).
End Construct.
