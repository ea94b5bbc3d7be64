(* Model of the specification object of the command-line processor
   (src/archon/cli/impl/spec.hpp): keywords, option forms, and the maps by which they are
   found.

   Characters and indexes are natural numbers, strings are lists of characters.  The
   "unspecified" index std::size_t(-1) is None.  std::map is a list of pairs with distinct
   keys; the order of the entries plays no role.  Of an option, the range of its forms, the
   argument specification without lexeme, the attributes, and what the action says about
   arguments are modelled.  Of patterns, only the number is modelled.  Overflow of sizes
   and failing allocation are not modelled.  Of an error, the error code and which message
   it is are modelled. *)
From Coq Require Import List Arith Bool ZArith.
From Verif Require Import ArrLib.
Import ListNotations.

Definition text := list nat.

Fixpoint text_eqb (a b : text) : bool :=
  match a, b with
  | [], [] => true
  | x :: a, y :: b => (x =? y) && text_eqb a b
  | _, _ => false
  end.

(* SpecError, those that are raised below, and the one that is not: spec_error.hpp:39-99 *)
Inductive spec_code :=
| bad_pattern_syntax | bad_option_forms_syntax | bad_option_arg_syntax | bad_option_attr | bad_option_ref
| option_arg_not_allowed | option_func_mismatch | option_form_reuse | bad_pattern_attr | pattern_func_mismatch
| structural_ambiguity.

(* The messages: impl/spec_parser.hpp:240, 242, 244, 498-499, 518-519, 531-532, 567-568, 622, 681, 740, 750, 754,
   815, 865, 264, 280; impl/spec.hpp:241, 243, 245, 308, 311, 315, 318, 323, 327, 354, 277, 285 *)
Inductive spec_msg :=
| multiple_patterns | unparenthesized_alternatives | slots_in_delegating
| opt_nullable | rep_nullable | rep_repeating | alt_nullable
| unexpected_token | need_space | unclosed_bracket | unclosed_parenthesis | bad_start | missing_closing | invalid_token
| syntax_error
| ref_takes_arg | ref_short_circuit | ref_further_values
| no_forms | invalid_attributes | arg_short_circuit | arg_further_values | action_rejects_arg | action_requires_arg
| form_reuse (option_ordinal : nat) | func_mismatch.

(* The result of what may raise an error.  PBad stands for a failing assertion, an access
   outside of a vector or a string, or lack of fuel. *)
Inductive presult (A : Type) := POk (a : A) | PErr (c : spec_code) (m : spec_msg) | PBad.
Arguments POk {A}. Arguments PErr {A}. Arguments PBad {A}.
Definition pbind {A B} (m : presult A) (k : A -> presult B) : presult B :=
  match m with POk a => k a | PErr c e => PErr c e | PBad => PBad end.
Definition pget {A} (o : option A) : presult A := match o with Some a => POk a | None => PBad end.
Notation "'let*' x := m 'in' k" := (pbind m (fun x => k)) (at level 200, x pattern, m at level 100, k at level 200).

(* OptionForm: spec.hpp:110-113 *)
Record oform := Oform { of_long : bool; of_lexeme : text }.

(* ProtoOption: spec.hpp:129-132 *)
Record proto := Proto { pr_pattern : option nat; pr_option : option nat }.

(* ArgSpec: spec.hpp:116-120 *)
Record argspec := Argspec { ar_allow : bool; ar_require : bool }.

(* Option: spec.hpp:144-150.  Of the action, the results of allow_arg() and require_arg() *)
Record action := Action { ac_allow : bool; ac_require : bool }.
Record optspec := Optspec { o_forms : nat * nat; o_arg : argspec; o_attr : Z; o_action : action }.

(* Spec: spec.hpp:94-107 *)
Record spec := Spec {
  k_keywords : list text; k_protos : list proto; k_forms : list oform; k_patterns : nat; k_options : list optspec;
  k_keyword_map : list (text * nat); k_short_map : list (nat * nat); k_long_map : list (text * nat)
}.

(* spec.hpp:162-166 *)
Definition empty_spec : spec := Spec [] [] [] 0 [] [] [] [].

(* cli::short_circuit, cli::further_args_are_values, cli::unlisted: attributes.hpp:65-86 *)
Definition short_circuit : Z := 1.
Definition further_args_are_values : Z := 2.
Definition unlisted : Z := 4.
Definition has_attr (attr flag : Z) : bool := negb (Z.land attr flag =? 0)%Z.

(* std::map::find() *)
Fixpoint mfind {K} (eqb : K -> K -> bool) (k : K) (m : list (K * nat)) : option nat :=
  match m with
  | [] => None
  | (k2, i) :: m => if eqb k k2 then Some i else mfind eqb k m
  end.

(* std::map::emplace().  The second value is the index that the key was mapped to, if it
   was there already. *)
Definition memplace {K} (eqb : K -> K -> bool) (k : K) (i : nat) (m : list (K * nat)) : list (K * nat) * option nat :=
  match mfind eqb k m with
  | None => (m ++ [(k, i)], None)
  | Some j => (m, Some j)
  end.

(* find_keyword: spec.hpp:389-397 *)
Definition find_keyword (s : spec) (name : text) : option nat := mfind text_eqb name (k_keyword_map s).

(* find_proto_option: spec.hpp:400-419 *)
Definition find_short (s : spec) (name : nat) : option nat := mfind Nat.eqb name (k_short_map s).
Definition find_long (s : spec) (name : text) : option nat := mfind text_eqb name (k_long_map s).

(* ensure_keyword: spec.hpp:183-199 *)
Definition ensure_keyword (s : spec) (lexeme : text) : spec * nat :=
  let keyword_index := length (k_keywords s) in
  match memplace text_eqb lexeme keyword_index (k_keyword_map s) with
  | (m, None) =>
    (Spec (k_keywords s ++ [lexeme]) (k_protos s) (k_forms s) (k_patterns s) (k_options s) m (k_short_map s) (k_long_map s),
     keyword_index)
  | (_, Some i) => (s, i)
  end.

(* std::basic_string_view::substr(2), which throws if there are less than 2 characters *)
Definition substr_2 (t : text) : option text := match t with _ :: _ :: t => Some t | _ => None end.

(* ensure_pattern_option, entry of the form in the maps: spec.hpp:205-230 *)
Definition ensure_proto (s : spec) (form : oform) : presult (spec * nat) :=
  let proto_index := length (k_protos s) in
  if negb (of_long form) then
    let* c := pget (nth_error (of_lexeme form) 1) in
    match memplace Nat.eqb c proto_index (k_short_map s) with
    | (m, None) =>
      POk (Spec (k_keywords s) (k_protos s ++ [Proto None None]) (k_forms s) (k_patterns s) (k_options s)
             (k_keyword_map s) m (k_long_map s), proto_index)
    | (_, Some i) => POk (s, i)
    end
  else
    let* name := pget (substr_2 (of_lexeme form)) in
    match memplace text_eqb name proto_index (k_long_map s) with
    | (m, None) =>
      POk (Spec (k_keywords s) (k_protos s ++ [Proto None None]) (k_forms s) (k_patterns s) (k_options s)
             (k_keyword_map s) (k_short_map s) m, proto_index)
    | (_, Some i) => POk (s, i)
    end.

(* ensure_pattern_option: spec.hpp:202-250 *)
Definition ensure_pattern_option (s : spec) (form : oform) (pattern_index : nat) : presult (spec * nat) :=
  let* (s, proto_index) := ensure_proto s form in
  let* p := pget (nth_error (k_protos s) proto_index) in
  let* _ :=
    match pr_option p with
    | Some option_index =>
      let* o := pget (nth_error (k_options s) option_index) in
      if ar_allow (o_arg o) then PErr bad_option_ref ref_takes_arg
      else if has_attr (o_attr o) short_circuit then PErr bad_option_ref ref_short_circuit
      else if has_attr (o_attr o) further_args_are_values then PErr bad_option_ref ref_further_values
      else POk tt
    | None => POk tt
    end in
  match pr_pattern p with
  | Some _ => POk (s, proto_index)
  | None =>
    let* protos := pget (set_nth (k_protos s) proto_index (Proto (Some pattern_index) (pr_option p))) in
    POk (Spec (k_keywords s) protos (k_forms s) (k_patterns s) (k_options s) (k_keyword_map s) (k_short_map s) (k_long_map s),
         proto_index)
  end.

(* add_option_forms: spec.hpp:253-259.  An index range has an offset and a size. *)
Definition add_option_forms (s : spec) (forms : list oform) : spec * (nat * nat) :=
  (Spec (k_keywords s) (k_protos s) (k_forms s ++ forms) (k_patterns s) (k_options s) (k_keyword_map s) (k_short_map s) (k_long_map s),
   (length (k_forms s), length forms)).

(* get_option_forms: spec.hpp:443-447 *)
Definition get_option_forms (s : spec) (range : nat * nat) : list oform := firstn (snd range) (skipn (fst range) (k_forms s)).

(* add_option, the search for previous use: spec.hpp:332-356 *)
Fixpoint check_reuse (s : spec) (forms : list oform) : presult unit :=
  match forms with
  | [] => POk tt
  | form :: forms =>
    let* found :=
      (if negb (of_long form) then
         let* c := pget (nth_error (of_lexeme form) 1) in POk (find_short s c)
       else
         let* name := pget (substr_2 (of_lexeme form)) in POk (find_long s name)) in
    match found with
    | None => check_reuse s forms
    | Some proto_index_2 =>
      let* p := pget (nth_error (k_protos s) proto_index_2) in
      match pr_option p with
      | None => PBad
      | Some option_index => PErr option_form_reuse (form_reuse (1 + option_index))
      end
    end
  end.

(* add_option, registration of the forms: spec.hpp:365-374 *)
Fixpoint register_forms (s : spec) (forms : list oform) (proto_index : nat) : presult spec :=
  match forms with
  | [] => POk s
  | form :: forms =>
    let* s :=
      (if negb (of_long form) then
         let* c := pget (nth_error (of_lexeme form) 1) in
         POk (Spec (k_keywords s) (k_protos s) (k_forms s) (k_patterns s) (k_options s) (k_keyword_map s)
                (fst (memplace Nat.eqb c proto_index (k_short_map s))) (k_long_map s))
       else
         let* name := pget (substr_2 (of_lexeme form)) in
         POk (Spec (k_keywords s) (k_protos s) (k_forms s) (k_patterns s) (k_options s) (k_keyword_map s)
                (k_short_map s) (fst (memplace text_eqb name proto_index (k_long_map s))))) in
    register_forms s forms proto_index
  end.

(* add_option: spec.hpp:293-375 *)
Definition add_option (s : spec) (forms : nat * nat) (arg : argspec) (attr : Z) (act : action) : presult spec :=
  if negb (k_patterns s =? 0) then PBad
  else
    let option_index := length (k_options s) in
    if snd forms =? 0 then PErr bad_option_forms_syntax no_forms
    else if negb (Z.land attr (Z.lnot (Z.lor short_circuit (Z.lor further_args_are_values unlisted))) =? 0)%Z then
      PErr bad_option_attr invalid_attributes
    else
      let* _ :=
        (if ar_allow arg then
           if has_attr attr short_circuit then PErr option_arg_not_allowed arg_short_circuit
           else if has_attr attr further_args_are_values then PErr option_arg_not_allowed arg_further_values
           else if negb (ac_allow act) then PErr option_func_mismatch action_rejects_arg
           else if negb (ar_require arg) && ac_require act then PErr option_func_mismatch action_requires_arg
           else POk tt
         else POk tt) in
      let* _ := check_reuse s (get_option_forms s forms) in
      let proto_index := length (k_protos s) in
      let s := Spec (k_keywords s) (k_protos s ++ [Proto None (Some option_index)]) (k_forms s) (k_patterns s)
                 (k_options s ++ [Optspec forms arg attr act]) (k_keyword_map s) (k_short_map s) (k_long_map s) in
      register_forms s (get_option_forms s forms) proto_index.

(* add_pattern, of which only the registration is modelled: spec.hpp:289 *)
Definition count_pattern (s : spec) : spec :=
  Spec (k_keywords s) (k_protos s) (k_forms s) (S (k_patterns s)) (k_options s) (k_keyword_map s) (k_short_map s) (k_long_map s).
