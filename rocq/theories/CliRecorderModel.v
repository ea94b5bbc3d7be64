(* Model of the recorder of pattern structures: from the nodes that were made by the parser
   to the flat structure (src/archon/cli/impl/spec_parser.hpp).

   Pointers to nodes are the nodes themselves.  std::stack over a vector is a list with the
   top first.  Lexemes of the symbols of the structure are left out. *)
From Coq Require Import List Arith Bool.
From Verif Require Import CliPatternModel CliSpecModel ArrLib.
Import ListNotations.

(* Node: spec_parser.hpp:94-100 *)
Inductive node_type :=
| n_keyword | n_short_option | n_long_option | n_value_slot | n_optionality | n_repetition | n_juxtaposition | n_alternatives
| n_sequence.
Record node := Node { nd_type : node_type; nd_left : nat; nd_right : nat; nd_lexeme : text }.

(* Frame: spec_parser.hpp:159-163 *)
Record rframe := Rframe { rf_parent : node_type; rf_node : node; rf_right : bool }.

(* Level: spec_parser.hpp:173-216 *)
Inductive level :=
| LSeq (staged_elems_offset num_params : nat) (nullable repeating : bool)
| LAlt (staged_seqs_offset nullable_seq_index : nat) (nullable repeating has_seq_with_params multiple_nullable_seqs : bool).

(* The variables of record() apart from frame and stack: spec_parser.hpp:165-167, 297-302,
   with the pattern structure and the specification *)
Record rstate := Rstate {
  x_levels : list level; x_seqs : list seq; x_elems : list elem; x_level : level; x_next_pos : nat;
  x_st : structure; x_spec : spec
}.

(* stage_elem: spec_parser.hpp:304-311 *)
Definition stage_elem (x : rstate) (type : elem_type) (is_param nullable repeating collapsible : bool) (index : nat) : presult rstate :=
  match x_level x with
  | LSeq off num_params nul rep =>
    POk (Rstate (x_levels x) (x_seqs x) (x_elems x ++ [Elem type is_param collapsible index (x_next_pos x)])
      (LSeq off (num_params + (if is_param then 1 else 0)) (nul && nullable) ((rep && nullable) || (nul && repeating)))
      (x_next_pos x) (x_st x) (x_spec x))
  | LAlt _ _ _ _ _ _ => PBad
  end.

(* stage_symbol: spec_parser.hpp:313-322 *)
Definition stage_symbol (x : rstate) (sym : psym) (is_param : bool) : presult rstate :=
  let st := x_st x in
  let sym_index := length (ps_syms st) in
  stage_elem (Rstate (x_levels x) (x_seqs x) (x_elems x) (x_level x) (S (x_next_pos x))
    (Structure (ps_syms st ++ [sym]) (ps_elems st) (ps_seqs st) (ps_alts st)) (x_spec x))
    t_sym is_param false false false sym_index.

(* stage_option: spec_parser.hpp:324-330 *)
Definition stage_option (x : rstate) (pattern_index : nat) (lexeme : text) (is_long : bool) : presult rstate :=
  let* (s, proto_index) := ensure_pattern_option (x_spec x) (Oform is_long lexeme) pattern_index in
  stage_symbol (Rstate (x_levels x) (x_seqs x) (x_elems x) (x_level x) (x_next_pos x) (x_st x) s) (Psym s_proto_option proto_index) false.

(* stage_seq: spec_parser.hpp:332-340 *)
Definition stage_seq (x : rstate) (staged_elems_offset num_params : nat) (nullable : bool) : presult rstate :=
  if staged_elems_offset <=? length (x_elems x) then
    let st := x_st x in
    let num_elems := length (x_elems x) - staged_elems_offset in
    let elems_offset := length (ps_elems st) in
    POk (Rstate (x_levels x) (x_seqs x ++ [Seq num_elems elems_offset num_params (x_next_pos x) nullable])
      (firstn staged_elems_offset (x_elems x)) (x_level x) (x_next_pos x)
      (Structure (ps_syms st) (ps_elems st ++ skipn staged_elems_offset (x_elems x)) (ps_seqs st) (ps_alts st)) (x_spec x))
  else PBad.

(* add_seq: spec_parser.hpp:342-348 *)
Definition add_seq (x : rstate) (staged_elems_offset num_params : nat) (nullable : bool) : presult (rstate * nat) :=
  let* x := stage_seq x staged_elems_offset num_params nullable in
  let st := x_st x in
  let seq_offset := length (ps_seqs st) in
  let* s := pget (nth_error (x_seqs x) (length (x_seqs x) - 1)) in
  POk (Rstate (x_levels x) (firstn (length (x_seqs x) - 1) (x_seqs x)) (x_elems x) (x_level x) (x_next_pos x)
    (Structure (ps_syms st) (ps_elems st) (ps_seqs st ++ [s]) (ps_alts st)) (x_spec x), seq_offset).

(* add_alt: spec_parser.hpp:350-360 *)
Definition add_alt (x : rstate) (staged_seqs_offset nullable_seq_index : nat) : presult (rstate * nat) :=
  if staged_seqs_offset <=? length (x_seqs x) then
    let st := x_st x in
    let num_seqs := length (x_seqs x) - staged_seqs_offset in
    let seqs_offset := length (ps_seqs st) in
    let alt_index := length (ps_alts st) in
    POk (Rstate (x_levels x) (firstn staged_seqs_offset (x_seqs x)) (x_elems x) (x_level x) (x_next_pos x)
      (Structure (ps_syms st) (ps_elems st) (ps_seqs st ++ skipn staged_seqs_offset (x_seqs x))
        (ps_alts st ++ [Alt num_seqs seqs_offset nullable_seq_index])) (x_spec x), alt_index)
  else PBad.

(* open_seq: spec_parser.hpp:372-375 *)
Definition open_seq (x : rstate) : rstate :=
  Rstate (x_level x :: x_levels x) (x_seqs x) (x_elems x) (LSeq (length (x_elems x)) 0 true false) (x_next_pos x) (x_st x) (x_spec x).

(* open_alt: spec_parser.hpp:403-406 *)
Definition open_alt (x : rstate) : rstate :=
  Rstate (x_level x :: x_levels x) (x_seqs x) (x_elems x) (LAlt (length (x_seqs x)) 0 false false false false) (x_next_pos x) (x_st x) (x_spec x).

Definition pop_level (x : rstate) : presult rstate :=
  match x_levels x with
  | [] => PBad
  | l :: ls => POk (Rstate ls (x_seqs x) (x_elems x) l (x_next_pos x) (x_st x) (x_spec x))
  end.

(* close_seq: spec_parser.hpp:377-385 *)
Definition close_seq (x : rstate) : presult (rstate * nat) :=
  match x_level x with
  | LSeq off num_params nul _ =>
    let* (x, seq_index) := add_seq x off num_params nul in
    let* x := pop_level x in
    POk (x, seq_index)
  | LAlt _ _ _ _ _ _ => PBad
  end.

(* close_seq_and_stage_as_branch: spec_parser.hpp:387-401 *)
Definition close_branch (x : rstate) : presult rstate :=
  match x_level x with
  | LSeq off num_params seq_nullable seq_repeating =>
    let* x := stage_seq x off num_params seq_nullable in
    let* x := pop_level x in
    match x_level x with
    | LAlt soff nullable_seq_index nullable repeating has_params multiple =>
      let multiple := if nullable && seq_nullable then true else multiple in
      let nullable := nullable || seq_nullable in
      let repeating := repeating || seq_repeating in
      let has_params := has_params || (0 <? num_params) in
      let nullable_seq_index := nullable_seq_index + (if nullable then 0 else 1) in
      POk (Rstate (x_levels x) (x_seqs x) (x_elems x)
        (LAlt soff nullable_seq_index nullable repeating has_params multiple) (x_next_pos x) (x_st x) (x_spec x))
    | LSeq _ _ _ _ => PBad
    end
  | LAlt _ _ _ _ _ _ => PBad
  end.

(* close_alt: spec_parser.hpp:408-415 *)
Definition close_alt (x : rstate) : presult (rstate * nat) :=
  match x_level x with
  | LAlt soff nullable_seq_index _ _ _ _ =>
    let* (x, alt_index) := add_alt x soff nullable_seq_index in
    let* x := pop_level x in
    POk (x, alt_index)
  | LSeq _ _ _ _ => PBad
  end.

Definition is_alternatives (t : node_type) : bool := match t with n_alternatives => true | _ => false end.

Section Record.
  Variable nodes : list node.
  Variable pattern_index : nat.

  (* enter_node: spec_parser.hpp:362-370 *)
  Definition enter_node (frame : rframe) (stack : list rframe) (node_index : nat) : presult (rframe * list rframe) :=
    let* nd := pget (nth_error nodes node_index) in
    POk (Rframe (nd_type (rf_node frame)) nd false, frame :: stack).

  (* The two labels: node_1 has a current frame, node_2 takes it from the stack *)
  Inductive label := Node1 (frame : rframe) | Node2.

  (* parser.error(): spec_parser.hpp:882-889.  The error code is that of the error qualifier,
     which is set by parse_pattern (237). *)
  Definition ambiguity {A} (m : spec_msg) : presult A := PErr bad_pattern_syntax m.

  (* The part of record() from the label node_1 to the end of the traversal:
     spec_parser.hpp:424-594 *)
  Fixpoint record_loop (fuel : nat) (l : label) (stack : list rframe) (x : rstate) : presult rstate :=
    match fuel with
    | O => PBad
    | S fuel =>
      match l with
      | Node1 frame =>
        match nd_type (rf_node frame) with
        | n_keyword =>
          let (s, keyword_index) := ensure_keyword (x_spec x) (nd_lexeme (rf_node frame)) in
          let* x := stage_symbol (Rstate (x_levels x) (x_seqs x) (x_elems x) (x_level x) (x_next_pos x) (x_st x) s)
                      (Psym s_keyword keyword_index) false in
          record_loop fuel Node2 stack x
        | n_short_option =>
          let* x := stage_option x pattern_index (nd_lexeme (rf_node frame)) false in
          record_loop fuel Node2 stack x
        | n_long_option =>
          let* x := stage_option x pattern_index (nd_lexeme (rf_node frame)) true in
          record_loop fuel Node2 stack x
        | n_value_slot =>
          let* x := stage_symbol x (Psym s_value_slot 0) true in
          record_loop fuel Node2 stack x
        | n_optionality | n_repetition =>
          let x := open_seq x in
          let* (frame, stack) := enter_node frame stack (nd_left (rf_node frame)) in
          record_loop fuel (Node1 frame) stack x
        | n_juxtaposition =>
          let* (frame, stack) := enter_node frame stack (nd_left (rf_node frame)) in
          record_loop fuel (Node1 frame) stack x
        | n_alternatives =>
          let x := if negb (is_alternatives (rf_parent frame)) then open_seq (open_alt x) else x in
          let* (frame, stack) := enter_node frame stack (nd_left (rf_node frame)) in
          record_loop fuel (Node1 frame) stack x
        | n_sequence => PBad
        end
      | Node2 =>
        match stack with
        | [] => POk x
        | frame :: stack =>
          match nd_type (rf_node frame) with
          | n_keyword | n_short_option | n_long_option | n_value_slot => PBad
          | n_optionality =>
            match x_level x with
            | LSeq _ num_params nullable repeating =>
              if nullable then ambiguity opt_nullable
              else
                let* (x, seq_index) := close_seq x in
                let* x := stage_elem x t_opt true true repeating (num_params =? 0) seq_index in
                record_loop fuel Node2 stack x
            | LAlt _ _ _ _ _ _ => PBad
            end
          | n_repetition =>
            match x_level x with
            | LSeq _ num_params nullable repeating =>
              if nullable then ambiguity rep_nullable
              else if repeating then ambiguity rep_repeating
              else
                let* (x, seq_index) := close_seq x in
                let* x := stage_elem x t_rep true false true (num_params =? 0) seq_index in
                record_loop fuel Node2 stack x
            | LAlt _ _ _ _ _ _ => PBad
            end
          | n_juxtaposition =>
            if rf_right frame then record_loop fuel Node2 stack x
            else
              let frame := Rframe (rf_parent frame) (rf_node frame) true in
              let* (frame, stack) := enter_node frame stack (nd_right (rf_node frame)) in
              record_loop fuel (Node1 frame) stack x
          | n_alternatives =>
            if rf_right frame then
              if negb (is_alternatives (rf_parent frame)) then
                let* x := close_branch x in
                match x_level x with
                | LAlt _ _ nullable repeating has_params multiple =>
                  if multiple then ambiguity alt_nullable
                  else
                    let* (x, alt_index) := close_alt x in
                    let* x := stage_elem x t_alt true nullable repeating (negb has_params) alt_index in
                    record_loop fuel Node2 stack x
                | LSeq _ _ _ _ => PBad
                end
              else record_loop fuel Node2 stack x
            else
              let frame := Rframe (rf_parent frame) (rf_node frame) true in
              let* x := close_branch x in
              let x := open_seq x in
              let* (frame, stack) := enter_node frame stack (nd_right (rf_node frame)) in
              record_loop fuel (Node1 frame) stack x
          | n_sequence => PBad
          end
        end
      end
    end.

  (* record: spec_parser.hpp:286-601.  None in place of a node index stands for
     std::size_t(-1).  The result is the index of the root sequence. *)
  Definition record (fuel : nat) (node_index : option nat) (st : structure) (s : spec) : presult (structure * spec * nat) :=
    let x := Rstate [] [] [] (LSeq 0 0 true false) 0 st s in
    let* x :=
      match node_index with
      | Some i =>
        let* nd := pget (nth_error nodes i) in
        record_loop fuel (Node1 (Rframe n_juxtaposition nd false)) [] x
      | None => POk x
      end in
    match x_level x, x_levels x with
    | LSeq _ num_params nullable _, [] =>
      let* (x, seq_index) := add_seq x 0 num_params nullable in
      POk (x_st x, x_spec x, seq_index)
    | _, _ => PBad
    end.
End Record.
