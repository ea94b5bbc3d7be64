(* Model of the structure of command-line patterns and of the construction of the NFA over
   pattern positions (src/archon/cli/impl/pattern_symbol.hpp, pattern_structure.hpp, nfa.hpp,
   nfa_builder.hpp).

   Indexes and sizes (std::size_t) are natural numbers: overflow is not modelled, because it
   takes vectors that do not fit in memory.  Allocation does not fail.  Lexemes are left
   out.  Pointers to elements of vectors are the elements themselves.  std::set is a list in
   increasing order.  None stands for a failing assertion, an access outside of a vector,
   or lack of fuel. *)
From Coq Require Import List Arith Bool.
From Verif Require Import ArrLib.
Import ListNotations.

(* PatternSymbol: pattern_symbol.hpp:34-49 *)
Inductive sym_type := s_keyword | s_proto_option | s_value_slot.
Record psym := Psym { s_type : sym_type; s_index : nat }.

(* the underlying values of the enumeration: pattern_symbol.hpp:36 *)
Definition sym_type_val (t : sym_type) : nat :=
  match t with s_keyword => 0 | s_proto_option => 1 | s_value_slot => 2 end.

(* operator==: pattern_symbol.hpp:78-81 *)
Definition psym_eqb (a b : psym) : bool :=
  (sym_type_val (s_type a) =? sym_type_val (s_type b)) && (s_index a =? s_index b).

(* operator<: pattern_symbol.hpp:90-93 *)
Definition psym_ltb (a b : psym) : bool :=
  (sym_type_val (s_type a) <? sym_type_val (s_type b)) ||
  ((sym_type_val (s_type a) =? sym_type_val (s_type b)) && (s_index a <? s_index b)).

(* PatternStructure: pattern_structure.hpp:36-147.  Lexemes are left out. *)
Inductive elem_type := t_sym | t_opt | t_rep | t_alt.
Record elem := Elem { e_type : elem_type; e_is_param : bool; e_collapsible : bool; e_index : nat; e_end_pos : nat }.
Record seq := Seq { q_num_elems : nat; q_elems_offset : nat; q_num_params : nat; q_end_pos : nat; q_nullable : bool }.
Record alt := Alt { a_num_seqs : nat; a_seqs_offset : nat; a_nullable_seq_index : nat }.
Record structure := Structure { ps_syms : list psym; ps_elems : list elem; ps_seqs : list seq; ps_alts : list alt }.

(* std::set::insert() on the elements in increasing order.  The second value tells whether
   the element was inserted. *)
Fixpoint set_insert (x : nat) (l : list nat) : list nat * bool :=
  match l with
  | [] => ([x], true)
  | y :: l' =>
    if x <? y then (x :: l, true)
    else if y <? x then let (l2, b) := set_insert x l' in (y :: l2, b)
    else (l, false)
  end.

(* Nfa: nfa.hpp:49-87 *)
Record position := Position { p_pattern : nat; p_ipos : nat; p_sym : psym; p_follow : list nat }.
Record nfa := Nfa { n_positions : list position; n_start : list nat }.

(* create_position: nfa.hpp:99-105 *)
Definition create_position (n : nfa) (pattern ipos : nat) (s : psym) : nfa * nat :=
  (Nfa (n_positions n ++ [Position pattern ipos s []]) (n_start n), length (n_positions n)).

(* register_startpos: nfa.hpp:108-111 *)
Definition register_startpos (n : nfa) (pos : nat) : nfa :=
  Nfa (n_positions n) (fst (set_insert pos (n_start n))).

(* register_followpos: nfa.hpp:114-119 *)
Definition nfa_register_followpos (n : nfa) (pos_1 pos_2 : nat) : option nfa :=
  let? p := nth_error (n_positions n) pos_1 in
  let? l := set_nth (n_positions n) pos_1
    (Position (p_pattern p) (p_ipos p) (p_sym p) (fst (set_insert pos_2 (p_follow p)))) in
  Some (Nfa l (n_start n)).

(* m_position_set_elems, and ranges of it: nfa_builder.hpp:53-54, 62 *)
Definition pos_set := (nat * nat)%type.

(* make_position_set: nfa_builder.hpp:290-297 *)
Definition make_position_set (ps : list nat) (pos : nat) : list nat * pos_set :=
  (ps ++ [pos], (length ps, S (length ps))).

(* position_set_union, the loops after the labels end_1 and end_2: nfa_builder.hpp:335-348 *)
Fixpoint union_rest (fuel : nat) (ps : list nat) (i i_end : nat) : option (list nat) :=
  match fuel with
  | O => None
  | S fuel =>
    if i <? i_end then
      let? pos := nth_error ps i in
      union_rest fuel (ps ++ [pos]) (S i) i_end
    else Some ps
  end.

(* position_set_union, from the label begin_1: nfa_builder.hpp:307-334.  The labels begin_2
   and begin_3 skip tests and accesses whose outcome is already known, and are therefore one
   with begin_1. *)
Fixpoint union_loop (fuel : nat) (ps : list nat) (i i_end j j_end : nat) : option (list nat) :=
  match fuel with
  | O => None
  | S fuel' =>
    if i =? i_end then union_rest fuel ps j j_end
    else
      let? pos_1 := nth_error ps i in
      if j =? j_end then union_rest fuel ps i i_end
      else
        let? pos_2 := nth_error ps j in
        if pos_1 <? pos_2 then union_loop fuel' (ps ++ [pos_1]) (S i) i_end j j_end
        else if pos_2 <? pos_1 then union_loop fuel' (ps ++ [pos_2]) i i_end (S j) j_end
        else union_loop fuel' (ps ++ [pos_1]) (S i) i_end (S j) j_end
  end.

(* position_set_union: nfa_builder.hpp:300-352.  The fuel is enough for ranges that are not
   longer than the vector. *)
Definition position_set_union (ps : list nat) (a b : pos_set) : option (list nat * pos_set) :=
  let begin := length ps in
  let? ps := union_loop (S (2 * length ps)) ps (fst a) (snd a) (fst b) (snd b) in
  Some (ps, (begin, length ps)).

(* register_followpos(PositionSet, std::size_t): nfa_builder.hpp:355-363.  Recursion is on
   the number of elements that remain. *)
Fixpoint register_followpos_1 (cnt : nat) (n : nfa) (ps : list nat) (i : nat) (pos : nat) : option nfa :=
  match cnt with
  | O => Some n
  | S cnt =>
    let? pos_1 := nth_error ps i in
    let? n := nfa_register_followpos n pos_1 pos in
    register_followpos_1 cnt n ps (S i) pos
  end.
Definition register_followpos_set_pos (n : nfa) (ps : list nat) (set : pos_set) (pos : nat) : option nfa :=
  register_followpos_1 (snd set - fst set) n ps (fst set) pos.

(* register_followpos(PositionSet, PositionSet), the inner loop: nfa_builder.hpp:371-374 *)
Fixpoint register_followpos_2 (cnt : nat) (n : nfa) (ps : list nat) (pos_1 : nat) (i_2 : nat) : option nfa :=
  match cnt with
  | O => Some n
  | S cnt =>
    let? pos_2 := nth_error ps i_2 in
    let? n := nfa_register_followpos n pos_1 pos_2 in
    register_followpos_2 cnt n ps pos_1 (S i_2)
  end.

(* register_followpos(PositionSet, PositionSet): nfa_builder.hpp:366-376 *)
Fixpoint register_followpos_3 (cnt : nat) (n : nfa) (ps : list nat) (i_1 : nat) (set_2 : pos_set) : option nfa :=
  match cnt with
  | O => Some n
  | S cnt =>
    let? pos_1 := nth_error ps i_1 in
    let? n := register_followpos_2 (snd set_2 - fst set_2) n ps pos_1 (fst set_2) in
    register_followpos_3 cnt n ps (S i_1) set_2
  end.
Definition register_followpos (n : nfa) (ps : list nat) (set_1 set_2 : pos_set) : option nfa :=
  register_followpos_3 (snd set_1 - fst set_1) n ps (fst set_1) set_2.

(* Result: nfa_builder.hpp:80-84.  An empty range is that from zero to zero. *)
Record result := Result { r_first : pos_set; r_last : pos_set; r_nullable : bool }.
Definition empty_result : result := Result (0, 0) (0, 0) false.

(* Frame: nfa_builder.hpp:87-103 *)
Inductive frame :=
| FSeq (q : seq) (elem_index : nat) (res : result)
| FAlt (a : alt) (seq_index : nat) (res : result).

Section Builder.
  Variable st : structure.
  Variable pattern_index : nat.

  (* init_seq: nfa_builder.hpp:123-129 *)
  Definition init_seq (seq_index : nat) : option frame :=
    let? q := nth_error (ps_seqs st) seq_index in
    Some (FSeq q 0 (Result (0, 0) (0, 0) true)).

  (* init_alt: nfa_builder.hpp:131-136 *)
  Definition init_alt (alt_index : nat) : option frame :=
    let? a := nth_error (ps_alts st) alt_index in
    Some (FAlt a 0 empty_result).

  (* integrate_seq_subresult: nfa_builder.hpp:138-158 *)
  Definition integrate_seq (n : nfa) (ps : list nat) (result_1 result_2 : result) : option (nfa * list nat * result) :=
    let? n := register_followpos n ps (r_last result_1) (r_first result_2) in
    let? (ps, first) :=
      (if negb (r_nullable result_1) then Some (ps, r_first result_1)
       else position_set_union ps (r_first result_1) (r_first result_2)) in
    let? (ps, last) :=
      (if negb (r_nullable result_2) then Some (ps, r_last result_2)
       else position_set_union ps (r_last result_1) (r_last result_2)) in
    Some (n, ps, Result first last (r_nullable result_1 && r_nullable result_2)).

  (* integrate_alt_subresult: nfa_builder.hpp:160-169 *)
  Definition integrate_alt (ps : list nat) (result_1 result_2 : result) : option (list nat * result) :=
    let? (ps, first) := position_set_union ps (r_first result_1) (r_first result_2) in
    let? (ps, last) := position_set_union ps (r_last result_1) (r_last result_2) in
    Some (ps, Result first last (r_nullable result_1 || r_nullable result_2)).

  (* The loop from the labels seq_begin and alt_begin: nfa_builder.hpp:171-274.  The kind of
     frame tells which label control is at; the labels seq_continue and alt_continue only
     increment the index of the frame.  The result is that of the root frame together with
     its sequence. *)
  Fixpoint build_loop (fuel : nat) (f : frame) (stack : list frame) (n : nfa) (ps : list nat) :
    option (nfa * list nat * result * seq) :=
    match fuel with
    | O => None
    | S fuel =>
      match f with
      | FSeq q i res =>
        if i <? q_num_elems q then
          let? e := nth_error (ps_elems st) (q_elems_offset q + i) in
          match e_type e with
          | t_sym =>
            let? ipos := (if 0 <? e_end_pos e then Some (e_end_pos e - 1) else None) in
            let? s := nth_error (ps_syms st) (e_index e) in
            let (n, pos) := create_position n pattern_index ipos s in
            let (ps, set) := make_position_set ps pos in
            let? (n, ps, res) := integrate_seq n ps res (Result set set false) in
            build_loop fuel (FSeq q (S i) res) stack n ps
          | t_opt | t_rep =>
            let? f2 := init_seq (e_index e) in
            build_loop fuel f2 (f :: stack) n ps
          | t_alt =>
            let? f2 := init_alt (e_index e) in
            build_loop fuel f2 (f :: stack) n ps
          end
        else if Bool.eqb (r_nullable res) (q_nullable q) then
          match stack with
          | FSeq q2 i2 res2 :: stack =>
            let? e := nth_error (ps_elems st) (q_elems_offset q2 + i2) in
            match e_type e with
            | t_opt =>
              let subresult := Result (r_first res) (r_last res) true in
              let? (n, ps, res2) := integrate_seq n ps res2 subresult in
              build_loop fuel (FSeq q2 (S i2) res2) stack n ps
            | t_rep =>
              let? n := register_followpos n ps (r_last res) (r_first res) in
              let? (n, ps, res2) := integrate_seq n ps res2 res in
              build_loop fuel (FSeq q2 (S i2) res2) stack n ps
            | _ => None
            end
          | FAlt a2 i2 res2 :: stack =>
            let? (ps, res2) := integrate_alt ps res2 res in
            build_loop fuel (FAlt a2 (S i2) res2) stack n ps
          | [] => Some (n, ps, res, q)
          end
        else None
      | FAlt a i res =>
        if i <? a_num_seqs a then
          let? f2 := init_seq (a_seqs_offset a + i) in
          build_loop fuel f2 (f :: stack) n ps
        else
          match stack with
          | FSeq q2 i2 res2 :: stack =>
            let? e := nth_error (ps_elems st) (q_elems_offset q2 + i2) in
            match e_type e with
            | t_alt =>
              let? (n, ps, res2) := integrate_seq n ps res2 res in
              build_loop fuel (FSeq q2 (S i2) res2) stack n ps
            | _ => None
            end
          | _ => None
          end
      end
    end.

  (* nfa_builder.hpp:276-280 *)
  Fixpoint register_starts (cnt : nat) (n : nfa) (ps : list nat) (i : nat) : option nfa :=
    match cnt with
    | O => Some n
    | S cnt =>
      let? pos := nth_error ps i in
      register_starts cnt (register_startpos n pos) ps (S i)
    end.

  (* PatternSymbol dummy_symbol = {}: nfa_builder.hpp:282 *)
  Definition dummy_symbol : psym := Psym s_keyword 0.

  (* add_pattern: nfa_builder.hpp:114-287 *)
  Definition add_pattern (fuel : nat) (n : nfa) (elem_seq_index : nat) : option nfa :=
    let? f := init_seq elem_seq_index in
    let? (n, ps, res, q) := build_loop fuel f [] n [] in
    let? n := register_starts (snd (r_first res) - fst (r_first res)) n ps (fst (r_first res)) in
    let (n, term_pos) := create_position n pattern_index (q_end_pos q) dummy_symbol in
    let n := if r_nullable res then register_startpos n term_pos else n in
    register_followpos_set_pos n ps (r_last res) term_pos.
End Builder.

(* pattern_matcher.hpp:145-153: one pattern after the other.  For each pattern, the index of
   its sequence of elements. *)
Fixpoint build_nfa (st : structure) (fuel : nat) (n : nfa) (i : nat) (patterns : list nat) : option nfa :=
  match patterns with
  | [] => Some n
  | s :: patterns =>
    let? n := add_pattern st i fuel n s in
    build_nfa st fuel n (S i) patterns
  end.
