(* Model of the parser of pattern strings, option forms, and option arguments
   (src/archon/cli/impl/spec_parser.hpp).

   A pointer into the string is the rest of the string from there.  Character
   classification by the locale (std::ctype::is(), std::ctype::scan_not()) is a parameter,
   and so is the narrowing of characters.  Characters have their ASCII codes, and widening
   of the characters below is the identity.  Of the members of the parser, m_curr (z_curr),
   m_next_token, m_nodes, and m_has_value_slot are modelled, and of the error qualifier, the
   error code.  The member m_end is constant while a string is parsed. *)
From Coq Require Import List Arith Bool.
From Verif Require Import CliPatternModel CliSpecModel CliRecorderModel ArrLib.
Import ListNotations.

(* spec_parser.hpp:110, 782-848 *)
Definition ch_space := 32.
Definition ch_left_parenthesis := 40.
Definition ch_right_parenthesis := 41.
Definition ch_comma := 44.
Definition ch_dash := 45.
Definition ch_dot := 46.
Definition ch_less_than := 60.
Definition ch_greater_than := 62.
Definition ch_left_sq_bracket := 91.
Definition ch_right_sq_bracket := 93.
Definition ch_vertical_bar := 124.

(* Token: spec_parser.hpp:84-92 *)
Inductive token_type :=
| t_keyword | t_short_option | t_long_option | t_value_slot | t_left_sq_bracket | t_right_sq_bracket
| t_left_parenthesis | t_right_parenthesis | t_ellipsis | t_vertical_bar | t_comma | t_end_of_input.
Record token := Token { tk_type : token_type; tk_lexeme : text; tk_spaced : bool }.

Record pstate := Pstate { z_curr : text; z_next : token; z_nodes : list node; z_slot : bool }.

Section Parser.
  Variable alnum : nat -> bool.
  Variable narrow : nat -> nat.
  Variable code : spec_code.

  (* parse_error: spec_parser.hpp:875-889 *)
  Definition parse_error {A} (m : spec_msg) : presult A := PErr code m.

  (* *i == c, provided that i is not the end *)
  Definition at_char (c : nat) (i : text) : bool := match i with x :: _ => x =? c | [] => false end.

  (* std::ctype::scan_not(std::ctype_base::alnum, i, m_end) *)
  Fixpoint scan_not (i : text) : text :=
    match i with
    | [] => []
    | c :: j => if alnum c then scan_not j else i
    end.

  (* std::find(i, m_end, m_greater_than) *)
  Fixpoint find_greater (i : text) : text :=
    match i with
    | [] => []
    | c :: j => if c =? ch_greater_than then i else find_greater j
    end.

  (* the loop for spaces: spec_parser.hpp:784-785 *)
  Fixpoint skip_spaces (i : text) : text :=
    match i with
    | c :: j => if c =? ch_space then skip_spaces j else i
    | [] => []
    end.

  (* the loop for long options: spec_parser.hpp:794-795 *)
  Fixpoint long_loop (fuel : nat) (i : text) : presult text :=
    match fuel, i with
    | S fuel, _ :: j =>
      let i := scan_not j in
      if at_char ch_dash i then long_loop fuel i else POk i
    | _, _ => PBad
    end.

  (* the loop for keywords: spec_parser.hpp:854-859 *)
  Fixpoint keyword_loop (fuel : nat) (i : text) : presult text :=
    match fuel with
    | O => PBad
    | S fuel =>
      let i := scan_not i in
      match i with
      | c :: j => if c =? ch_dash then keyword_loop fuel j else POk i
      | [] => POk i
      end
    end.

  (* the string from one pointer to another *)
  Definition between (curr i : text) : text := firstn (length curr - length i) curr.

  (* extract_next_token, from the label again: spec_parser.hpp:774-870 *)
  Fixpoint extract_again (fuel : nat) (curr : text) (spaced : bool) : presult (token * text) :=
    match fuel with
    | O => PBad
    | S fuel =>
      let good type i := POk (Token type (between curr i) spaced, i) in
      match curr with
      | [] => good t_end_of_input []
      | c :: i =>
        let ch := narrow c in
        let word :=
          if (ch =? ch_dash) || alnum ch then
            let* i := keyword_loop (S (length i)) i in good t_keyword i
          else parse_error invalid_token in
        if ch =? ch_space then extract_again fuel (skip_spaces i) true
        else if ch =? ch_dash then
          match i with
          | [] => word
          | x :: j =>
            if x =? ch_dash then let* i := long_loop (length i) i in good t_long_option i
            else if negb (x =? ch_space) then good t_short_option j
            else word
          end
        else if ch =? ch_less_than then
          match find_greater i with
          | [] => parse_error missing_closing
          | _ :: i => good t_value_slot i
          end
        else if ch =? ch_left_parenthesis then good t_left_parenthesis i
        else if ch =? ch_right_parenthesis then good t_right_parenthesis i
        else if ch =? ch_left_sq_bracket then good t_left_sq_bracket i
        else if ch =? ch_right_sq_bracket then good t_right_sq_bracket i
        else if ch =? ch_dot then
          match i with
          | x :: y :: i => if (x =? ch_dot) && (y =? ch_dot) then good t_ellipsis i else parse_error invalid_token
          | _ => parse_error invalid_token
          end
        else if ch =? ch_vertical_bar then good t_vertical_bar i
        else if ch =? ch_comma then good t_comma i
        else word
      end
    end.

  (* extract_next_token: spec_parser.hpp:767-871 *)
  Definition extract_next_token (z : pstate) : presult pstate :=
    let* (token, i) := extract_again (S (length (z_curr z))) (z_curr z) false in
    POk (Pstate i token (z_nodes z) (z_slot z)).

  (* m_nodes.push_back(), with the index of the node *)
  Definition push_node (z : pstate) (nd : node) : pstate * nat :=
    (Pstate (z_curr z) (z_next z) (z_nodes z ++ [nd]) (z_slot z), length (z_nodes z)).

  (* token_node: spec_parser.hpp:756-763 *)
  Definition token_node (z : pstate) (type : node_type) : presult (pstate * nat * nat) :=
    let nd := Node type 0 0 (tk_lexeme (z_next z)) in
    let* z := extract_next_token z in
    let (z, i) := push_node z nd in
    POk (z, i, 4).

  (* is_concat: spec_parser.hpp:672-677 *)
  Definition is_concat (t : token_type) : bool :=
    match t with
    | t_keyword | t_short_option | t_long_option | t_value_slot | t_left_sq_bracket | t_left_parenthesis => true
    | _ => false
    end.

  (* parse_alternatives: spec_parser.hpp:647-664; parse_juxtaposition: 667-691;
     parse_repetition: 694-710; parse_element: 713-764.  The loops are functions on their
     own.  A result is the index of a node and the precedence. *)
  Fixpoint parse_alternatives (fuel : nat) (z : pstate) : presult (pstate * nat * nat) :=
    match fuel with
    | O => PBad
    | S fuel =>
      let* (z, i, p) := parse_juxtaposition fuel z in
      alternatives_loop fuel z i p
    end
  with alternatives_loop (fuel : nat) (z : pstate) (i p : nat) : presult (pstate * nat * nat) :=
    match fuel with
    | O => PBad
    | S fuel =>
      match tk_type (z_next z) with
      | t_vertical_bar =>
        let* z := extract_next_token z in
        let* (z, j, _) := parse_juxtaposition fuel z in
        let (z, k) := push_node z (Node n_alternatives i j []) in
        alternatives_loop fuel z k 1
      | _ => POk (z, i, p)
      end
    end
  with parse_juxtaposition (fuel : nat) (z : pstate) : presult (pstate * nat * nat) :=
    match fuel with
    | O => PBad
    | S fuel =>
      let* (z, i, p) := parse_repetition fuel z in
      juxtaposition_loop fuel z i p
    end
  with juxtaposition_loop (fuel : nat) (z : pstate) (i p : nat) : presult (pstate * nat * nat) :=
    match fuel with
    | O => PBad
    | S fuel =>
      if negb (is_concat (tk_type (z_next z))) then POk (z, i, p)
      else if negb (tk_spaced (z_next z)) then parse_error need_space
      else
        let* (z, j, _) := parse_repetition fuel z in
        let (z, k) := push_node z (Node n_juxtaposition i j []) in
        juxtaposition_loop fuel z k 2
    end
  with parse_repetition (fuel : nat) (z : pstate) : presult (pstate * nat * nat) :=
    match fuel with
    | O => PBad
    | S fuel =>
      let* (z, i, p) := parse_element fuel z in
      repetition_loop fuel z i p
    end
  with repetition_loop (fuel : nat) (z : pstate) (i p : nat) : presult (pstate * nat * nat) :=
    match fuel with
    | O => PBad
    | S fuel =>
      match tk_type (z_next z) with
      | t_ellipsis =>
        let* z := extract_next_token z in
        let (z, k) := push_node z (Node n_repetition i 0 []) in
        repetition_loop fuel z k 3
      | _ => POk (z, i, p)
      end
    end
  with parse_element (fuel : nat) (z : pstate) : presult (pstate * nat * nat) :=
    match fuel with
    | O => PBad
    | S fuel =>
      match tk_type (z_next z) with
      | t_keyword => token_node z n_keyword
      | t_short_option => token_node z n_short_option
      | t_long_option => token_node z n_long_option
      | t_value_slot => token_node (Pstate (z_curr z) (z_next z) (z_nodes z) true) n_value_slot
      | t_left_sq_bracket =>
        let* z := extract_next_token z in
        let* (z, i, _) := parse_alternatives fuel z in
        match tk_type (z_next z) with
        | t_right_sq_bracket =>
          let* z := extract_next_token z in
          let (z, k) := push_node z (Node n_optionality i 0 []) in
          POk (z, k, 4)
        | _ => parse_error unclosed_bracket
        end
      | t_left_parenthesis =>
        let* z := extract_next_token z in
        let* (z, i, _) := parse_alternatives fuel z in
        match tk_type (z_next z) with
        | t_right_parenthesis =>
          let* z := extract_next_token z in
          POk (z, i, 4)
        | _ => parse_error unclosed_parenthesis
        end
      | _ => parse_error bad_start
      end
    end.

  (* parse_sequence: spec_parser.hpp:627-644 *)
  Fixpoint sequence_loop (fuel : nat) (z : pstate) (i p : nat) : presult (pstate * nat * nat) :=
    match fuel with
    | O => PBad
    | S fuel =>
      match tk_type (z_next z) with
      | t_comma =>
        let* z := extract_next_token z in
        let* (z, j, _) := parse_alternatives fuel z in
        let (z, k) := push_node z (Node n_sequence i j []) in
        sequence_loop fuel z k 0
      | _ => POk (z, i, p)
      end
    end.
  Definition parse_sequence (fuel : nat) (z : pstate) : presult (pstate * nat * nat) :=
    let* (z, i, p) := parse_alternatives fuel z in
    sequence_loop fuel z i p.

  (* parse: spec_parser.hpp:617-624 *)
  Definition parse (fuel : nat) (z : pstate) : presult (pstate * nat * nat) :=
    let* (z, i, p) := parse_sequence fuel z in
    match tk_type (z_next z) with
    | t_end_of_input => POk (z, i, p)
    | _ => parse_error unexpected_token
    end.

  (* reset: spec_parser.hpp:604-614.  The next token is set by extract_next_token. *)
  Definition reset (spec : text) : presult (pstate * bool) :=
    let* z := extract_next_token (Pstate spec (Token t_end_of_input [] false) [] false) in
    POk (z, match tk_type (z_next z) with t_end_of_input => false | _ => true end).
End Parser.

(* parse_pattern: spec_parser.hpp:232-249 *)
Definition parse_pattern alnum narrow (fuel : nat) (pattern : text) (st : structure) (s : spec) (pattern_index : nat) (is_deleg : bool) :
  presult (structure * spec * nat) :=
  let code := bad_pattern_syntax in
  let* (z, nonempty) := reset alnum narrow code pattern in
  let* (z, node_index) :=
    (if nonempty then
       let* (z, i, p) := parse alnum narrow code fuel z in
       if p =? 0 then parse_error code multiple_patterns
       else if p =? 1 then parse_error code unparenthesized_alternatives
       else if z_slot z && is_deleg then parse_error code slots_in_delegating
       else POk (z, Some i)
     else POk (z, None)) in
  record (z_nodes z) pattern_index fuel node_index st s.

(* get_option_forms: spec_parser.hpp:900-923.  The buffer is passed on, and returned with
   the result. *)
Fixpoint get_forms (nodes : list node) (fuel : nat) (node_index : nat) (buffer : list oform) : presult (list oform * bool) :=
  match fuel with
  | O => PBad
  | S fuel =>
    let* nd := pget (nth_error nodes node_index) in
    match nd_type nd with
    | n_short_option => POk (buffer ++ [Oform false (nd_lexeme nd)], true)
    | n_long_option => POk (buffer ++ [Oform true (nd_lexeme nd)], true)
    | n_sequence =>
      let* (buffer, ok) := get_forms nodes fuel (nd_left nd) buffer in
      if ok then get_forms nodes fuel (nd_right nd) buffer else POk (buffer, false)
    | _ => POk (buffer, false)
    end
  end.

(* parse_option_forms: spec_parser.hpp:252-267 *)
Definition parse_option_forms alnum narrow (fuel : nat) (forms : text) (s : spec) : presult (spec * (nat * nat)) :=
  let code := bad_option_forms_syntax in
  let* (z, nonempty) := reset alnum narrow code forms in
  let* forms_2 :=
    (if nonempty then
       let* (z, i, _) := parse alnum narrow code fuel z in
       let* (buffer, ok) := get_forms (z_nodes z) fuel i [] in
       if ok then POk buffer else parse_error code syntax_error
     else POk []) in
  POk (add_option_forms s forms_2).

(* get_option_arg_spec: spec_parser.hpp:926-951.  None stands for false. *)
Fixpoint get_arg (nodes : list node) (fuel : nat) (node_index : nat) (optional : bool) : presult (option argspec) :=
  match fuel with
  | O => PBad
  | S fuel =>
    let* nd := pget (nth_error nodes node_index) in
    match nd_type nd with
    | n_value_slot => POk (Some (Argspec true (negb optional)))
    | n_optionality => if negb optional then get_arg nodes fuel (nd_left nd) true else POk None
    | _ => POk None
    end
  end.

(* parse_option_arg: spec_parser.hpp:270-283; ArgSpec: spec.hpp:116-120 *)
Definition parse_option_arg alnum narrow (fuel : nat) (arg : text) : presult argspec :=
  let code := bad_option_arg_syntax in
  let* (z, nonempty) := reset alnum narrow code arg in
  if nonempty then
    let* (z, i, _) := parse alnum narrow code fuel z in
    let* r := get_arg (z_nodes z) fuel i false in
    match r with
    | Some a => POk a
    | None => parse_error code syntax_error
    end
  else POk (Argspec false false).
