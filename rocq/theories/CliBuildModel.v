(* Model of the construction of the command-line processor (src/archon/cli/processor.hpp,
   src/archon/cli/impl/spec.hpp): from the declarations of options and patterns to the
   specification object and the pattern structure.

   Strings are already widened.  The null actions, and the check of a pattern function
   against a pattern are parameters: an option or a pattern without action has the null
   action, and fits tells what the check says.  Descriptions are not modelled. *)
From Coq Require Import List Arith Bool ZArith.
From Verif Require Import CliPatternModel CliSpecModel CliRecorderModel CliParserModel.
Import ListNotations.

(* The entries of the specification: spec.hpp (cli), those parts that are used by the
   constructor *)
Record option_decl := Option_decl { od_forms : text; od_arg : text; od_attr : Z; od_action : action }.
Record pattern_decl := Pattern_decl { pd_pattern : text; pd_attr : Z; pd_deleg : bool; pd_fits : structure -> nat -> bool }.

(* cli::completing: attributes.hpp:45-56 *)
Definition completing : Z := 1%Z.

(* add_pattern: impl/spec.hpp:263-290.  The pattern is given by its sequence of elements and
   whether it is delegating. *)
Definition add_pattern (s : spec) (attr : Z) (elem_seq_index : nat) (is_deleg : bool) (fits : structure -> nat -> bool) (st : structure) :
  presult spec :=
  if negb (Z.land attr (Z.lnot completing) =? 0)%Z then PErr bad_pattern_attr invalid_attributes
  else if negb is_deleg && negb (fits st elem_seq_index) then PErr pattern_func_mismatch func_mismatch
  else POk (count_pattern s).

Section Build.
  Variable alnum : nat -> bool.
  Variable narrow : nat -> nat.

  (* constructor, options: processor.hpp:604-629 *)
  Fixpoint build_options (fuel : nat) (s : spec) (option_index : nat) (l : list option_decl) : presult spec :=
    match l with
    | [] => POk s
    | entry :: l =>
      if negb (option_index =? length (k_options s)) then PBad
      else
        let* (s, forms_2) := parse_option_forms alnum narrow fuel (od_forms entry) s in
        let* arg_2 := parse_option_arg alnum narrow fuel (od_arg entry) in
        let* s := add_option s forms_2 arg_2 (od_attr entry) (od_action entry) in
        build_options fuel s (S option_index) l
    end.

  (* constructor, patterns: processor.hpp:632-646.  The list in front contains the patterns
     added so far. *)
  Fixpoint build_patterns (fuel : nat) (st : structure) (s : spec) (patterns : list (nat * bool)) (pattern_index : nat) (l : list pattern_decl) :
    presult (structure * spec * list (nat * bool)) :=
    match l with
    | [] => POk (st, s, patterns)
    | entry :: l =>
      if negb (pattern_index =? k_patterns s) then PBad
      else
        let* (st, s, k) := parse_pattern alnum narrow fuel (pd_pattern entry) st s pattern_index (pd_deleg entry) in
        let* s := add_pattern s (pd_attr entry) k (pd_deleg entry) (pd_fits entry) st in
        build_patterns fuel st s (patterns ++ [(k, pd_deleg entry)]) (S pattern_index) l
    end.

  (* constructor: processor.hpp:545-664.  The null pattern action fits all patterns:
     347-350. *)
  Definition build (fuel : nat) (options : list option_decl) (patterns : list pattern_decl) : presult (structure * spec * list (nat * bool)) :=
    let* s := build_options fuel empty_spec 0 options in
    let* (st, s, l) := build_patterns fuel (Structure [] [] [] []) s [] 0 patterns in
    if k_patterns s =? 0 then
      let* (st, s, k) := parse_pattern alnum narrow fuel [] st s 0 false in
      let* s := add_pattern s 0 k false (fun _ _ => true) st in
      POk (st, s, l ++ [(k, false)])
    else POk (st, s, l).
End Build.
