(* Model of BasicStringMatcher and its Builder: /repo/src/archon/core/string_matcher.hpp.

   Characters are integers in [kmin, kmax], the range of the character type C; star is the
   widened asterisk.  std::set<std::size_t> is its list of elements in ascending order, and
   so is a PositionSet (identifier of a set in a FrozenSets object): the sets of different
   identifiers do not affect each other, see C34.  Where FrozenSets goes wrong, uniting two
   equal sets through unite(Ident, Ident), the outcome of the model is None.  None also
   stands for a failed assertion, and an access outside of a container.  Memory allocation
   does not fail, and sizes do not overflow. *)
From Coq Require Import ZArith Bool List Arith.
From Verif Require Import ArrLib FrozenSetsModel RangeMapModel.
Import ListNotations.
Open Scope nat_scope.

Section Matcher.
  Variables kmin kmax star : Z.

  Notation position_set := (list nat).
  Definition union (a b : position_set) : position_set := set_union Nat.ltb a b.
  Fixpoint set_eqb (a b : position_set) : bool :=
    match a, b with
    | [], [] => true
    | x :: a, y :: b => (x =? y) && set_eqb a b
    | _, _ => false
    end.
  (* FrozenSets::unite(Ident, Ident) *)
  Definition unite (a b : position_set) : option position_set :=
    if set_eqb a b then None else Some (union a b).

  (* string_matcher.hpp:142-147 *)
  Inductive token := TSegment (lexeme : list Z) | TWildcard | TEnd.
  (* string_matcher.hpp:251-257 *)
  Inductive node := NSegment (lexeme : list Z) | NWildcard | NConcat (left right : nat).
  (* string_matcher.hpp:260-279 *)
  Inductive symbol := SCharacter (ch : Z) | SWildcard.
  (* string_matcher.hpp:291-298 *)
  Record slot := Slot {
    slot_pattern_index : nat;
    slot_single : bool;
    slot_symbol : symbol;
    slot_followpos : nat
  }.

  (* extract_next_token: string_matcher.hpp:546-567; the argument is what is between m_curr
     and m_end *)
  Fixpoint segment_end (i : list Z) : list Z * list Z :=
    match i with
    | [] => ([], [])
    | c :: i' => if Z.eqb c star then ([], i) else let (a, b) := segment_end i' in (c :: a, b)
    end.
  Definition extract_next_token (curr : list Z) : token * list Z :=
    match curr with
    | [] => (TEnd, [])
    | c :: i =>
      if Z.eqb c star then (TWildcard, i)
      else let (a, b) := segment_end i in (TSegment (c :: a), b)
    end.

  (* the state of the parser: m_nodes, m_next_token, m_curr *)
  Notation parser := (list node * (token * list Z))%type.

  (* parse_element: string_matcher.hpp:520-543 *)
  Definition parse_element (p : parser) : option (nat * parser) :=
    let '(nodes, (tok, curr)) := p in
    let add n := Some (length nodes, (nodes ++ [n], extract_next_token curr)) in
    match tok with
    | TSegment lexeme => add (NSegment lexeme)
    | TWildcard => add NWildcard
    | TEnd => None
    end.

  (* parse_concatenation: string_matcher.hpp:501-517 *)
  Fixpoint parse_loop (fuel : nat) (node_index : nat) (p : parser) : option (nat * parser) :=
    match fuel with
    | O => None
    | S fuel =>
      match fst (snd p) with
      | TEnd => Some (node_index, p)
      | _ =>
        let? (r, p) := parse_element p in
        let '(nodes, rest) := p in
        parse_loop fuel (length nodes) (nodes ++ [NConcat node_index r], rest)
      end
    end.
  Definition parse_concatenation (fuel : nat) (p : parser) : option (nat * parser) :=
    let? (node_index, p) := parse_element p in parse_loop fuel node_index p.

  (* m_positions and m_followpos_sets *)
  Notation nfa := (list slot * list position_set)%type.

  (* register_position: string_matcher.hpp:644-654 *)
  Definition register_position (n : nfa) (s : symbol) (pattern_index : nat) : nat * nfa :=
    (length (fst n), (fst n ++ [Slot pattern_index false s 0], snd n)).

  (* register_followpos: string_matcher.hpp:657-677 *)
  Definition register_followpos (n : nfa) (pos_1 pos_2 : nat) : option nfa :=
    let '(positions, sets) := n in
    let? s := nth_error positions pos_1 in
    let update single followpos :=
      set_nth positions pos_1 (Slot (slot_pattern_index s) single (slot_symbol s) followpos) in
    if negb (slot_single s) then
      if slot_followpos s =? 0 then
        let? positions := update true pos_2 in Some (positions, sets)
      else
        let? set := nth_error sets (slot_followpos s) in
        let? sets := set_nth sets (slot_followpos s) (union set [pos_2]) in
        Some (positions, sets)
    else
      let index := length sets in
      let? positions := update false index in
      Some (positions, sets ++ [union [slot_followpos s] [pos_2]]).

  (* string_matcher.hpp:680-697 *)
  Fixpoint register_followpos_1 (n : nfa) (set : position_set) (pos : nat) : option nfa :=
    match set with
    | [] => Some n
    | pos_1 :: set =>
      let? n := register_followpos n pos_1 pos in register_followpos_1 n set pos
    end.
  Fixpoint register_followpos_each (n : nfa) (pos_1 : nat) (set_2 : position_set) : option nfa :=
    match set_2 with
    | [] => Some n
    | pos_2 :: set_2 =>
      let? n := register_followpos n pos_1 pos_2 in register_followpos_each n pos_1 set_2
    end.
  Fixpoint register_followpos_2 (n : nfa) (set_1 set_2 : position_set) : option nfa :=
    match set_1 with
    | [] => Some n
    | pos_1 :: set_1 =>
      let? n := register_followpos_each n pos_1 set_2 in register_followpos_2 n set_1 set_2
    end.

  (* string_matcher.hpp:301-305 *)
  Record result := Result { r_nullable : bool; r_firstpos : position_set; r_lastpos : position_set }.

  (* the loop for the characters of a segment: string_matcher.hpp:594-600 *)
  Fixpoint add_characters (n : nfa) (pattern_index pos : nat) (chars : list Z) : option (nfa * nat) :=
    match chars with
    | [] => Some (n, pos)
    | ch :: chars =>
      let (pos_2, n) := register_position n (SCharacter ch) pattern_index in
      let? n := register_followpos n pos pos_2 in
      add_characters n pattern_index pos_2 chars
    end.

  (* add_node: string_matcher.hpp:570-641 *)
  Fixpoint add_node (fuel : nat) (nodes : list node) (n : nfa) (node_index pattern_index : nat) : option (result * nfa) :=
    match fuel with
    | O => None
    | S fuel =>
      let? node := nth_error nodes node_index in
      match node with
      | NSegment lexeme =>
        match lexeme with
        | [] => None
        | ch :: chars =>
          let (pos, n) := register_position n (SCharacter ch) pattern_index in
          let? (n, last) := add_characters n pattern_index pos chars in
          Some (Result false [pos] [last], n)
        end
      | NWildcard =>
        let (pos, n) := register_position n SWildcard pattern_index in
        let? n := register_followpos n pos pos in
        Some (Result true [pos] [pos], n)
      | NConcat left_ right_ =>
        let? (result_1, n) := add_node fuel nodes n left_ pattern_index in
        let? (result_2, n) := add_node fuel nodes n right_ pattern_index in
        let? n := register_followpos_2 n (r_lastpos result_1) (r_firstpos result_2) in
        let? firstpos :=
          (if negb (r_nullable result_1) then Some (r_firstpos result_1)
           else unite (r_firstpos result_1) (r_firstpos result_2)) in
        let? lastpos :=
          (if negb (r_nullable result_2) then Some (r_lastpos result_2)
           else unite (r_lastpos result_1) (r_lastpos result_2)) in
        Some (Result (r_nullable result_1 && r_nullable result_2) firstpos lastpos, n)
      end
    end.

  (* the builder: m_patterns, m_positions and m_followpos_sets, m_start_positions *)
  Record builder := Builder {
    b_patterns : list Z;          (* identifiers *)
    b_nfa : nfa;
    b_start : position_set
  }.

  (* Builder(): string_matcher.hpp:385-393 *)
  Definition new_builder : builder := Builder [] ([], [[]]) [].

  (* clear: string_matcher.hpp:439-446; resize(1) keeps the first set *)
  Definition clear (b : builder) : builder := Builder [] ([], firstn 1 (snd (b_nfa b) ++ [[]])) [].

  (* add_pattern, do_add_pattern, reset_parser, parse: string_matcher.hpp:404-411, 456-498.
     The value of the term symbol has no meaning. *)
  Definition add_pattern (b : builder) (pattern : list Z) (ident : Z) : option builder :=
    let pattern_index := length (b_patterns b) in
    let patterns := b_patterns b ++ [ident] in
    let (tok, curr) := extract_next_token pattern in
    match tok with
    | TEnd =>
      let (term_pos, n) := register_position (b_nfa b) (SCharacter 0) pattern_index in
      Some (Builder patterns n (union (b_start b) [term_pos]))
    | _ =>
      let? (node_index, p) := parse_concatenation (S (length pattern)) ([], (tok, curr)) in
      match fst (snd p) with
      | TEnd =>
        let? (result, n) := add_node (length (fst p)) (fst p) (b_nfa b) node_index pattern_index in
        let start := union (b_start b) (r_firstpos result) in
        let (term_pos, n) := register_position n (SCharacter 0) pattern_index in
        let start := if r_nullable result then union start [term_pos] else start in
        let? n := register_followpos_1 n (r_lastpos result) term_pos in
        Some (Builder patterns n start)
      | _ => None
      end
    end.

  Fixpoint add_patterns (b : builder) (patterns : list (list Z * Z)) : option builder :=
    match patterns with
    | [] => Some b
    | (pattern, ident) :: patterns => let? b := add_pattern b pattern ident in add_patterns b patterns
    end.

  (* string_matcher.hpp:237-248; None in place of a pattern index is std::size_t(-1) *)
  Record state := State { st_pattern : option nat; st_begin : nat; st_end : nat }.
  Record transition := Transition { tr_first : Z; tr_last : Z; tr_target : nat }.
  Record matcher := Matcher { m_patterns : list Z; m_states : list state; m_transitions : list transition }.

  (* The outcome of build(): a matcher, or the exception about these two patterns *)
  Inductive outcome {A : Type} := Built (m : A) | Ambiguity (first second : nat).
  Arguments outcome : clear implicits.

  (* the set of positions after a position that is not final: string_matcher.hpp:743-750 *)
  Definition follow_set (n : nfa) (s : slot) : option position_set :=
    if slot_single s then Some [slot_followpos s] else nth_error (snd n) (slot_followpos s).

  Notation targets := (list (Z * (Z * position_set))).

  (* the loop over the positions of a state: string_matcher.hpp:739-774 *)
  Fixpoint scan (allow_ambiguity : bool) (n : nfa) (positions : position_set)
      (t : targets) (pattern_index : option nat) : option (outcome (targets * option nat)) :=
    match positions with
    | [] => Some (Built (t, pattern_index))
    | pos :: positions =>
      let? s := nth_error (fst n) pos in
      let is_final_pos := negb (slot_single s) && (slot_followpos s =? 0) in
      if negb is_final_pos then
        let? set := follow_set n s in
        let func (position_set_1 : position_set) := union position_set_1 set in
        let? t :=
          match slot_symbol s with
          | SCharacter ch => rm_update kmin kmax [] func t ch ch
          | SWildcard => rm_update kmin kmax [] func t kmin kmax
          end in
        scan allow_ambiguity n positions t pattern_index
      else
        match pattern_index with
        | None => scan allow_ambiguity n positions t (Some (slot_pattern_index s))
        | Some first =>
          if negb (first <? slot_pattern_index s) then None
          else if allow_ambiguity then scan allow_ambiguity n positions t pattern_index
          else Some (Ambiguity first (slot_pattern_index s))
        end
    end.

  (* ensure_state: string_matcher.hpp:713-728.  The keys of state_map, in the order in which
     they were added, that is, the position in the list is the state index; and
     m_unchecked_position_sets. *)
  Fixpoint find_state (keys : list position_set) (set : position_set) : option nat :=
    match keys with
    | [] => None
    | k :: keys => if set_eqb k set then Some 0 else option_map S (find_state keys set)
    end.
  Definition ensure_state (keys unchecked : list position_set) (set : position_set) :
      nat * (list position_set * list position_set) :=
    match find_state keys set with
    | Some i => (i, (keys, unchecked))
    | None => (length keys, (keys ++ [set], unchecked ++ [set]))
    end.

  (* the loop over the target sets: string_matcher.hpp:782-788 *)
  Fixpoint add_transitions (t : targets) (keys unchecked : list position_set) (transitions : list transition) :
      option (list position_set * list position_set * list transition) :=
    match t with
    | [] => Some (keys, unchecked, transitions)
    | (first, (last, set)) :: t =>
      match set with
      | [] => None
      | _ =>
        let '(i, (keys, unchecked)) := ensure_state keys unchecked set in
        add_transitions t keys unchecked (transitions ++ [Transition first last i])
      end
    end.

  (* build_dfa: string_matcher.hpp:734-793 *)
  Fixpoint build_loop (fuel : nat) (allow_ambiguity : bool) (n : nfa) (keys unchecked : list position_set)
      (states : list state) (transitions : list transition) : option (outcome (list state * list transition)) :=
    match fuel with
    | O => None
    | S fuel =>
      match unchecked with
      | [] => None
      | set :: unchecked' =>
        let? r := scan allow_ambiguity n set [] None in
        match r with
        | Ambiguity i j => Some (Ambiguity i j)
        | Built (t, pattern_index) =>
          let? t := rm_defrag kmin kmax set_eqb t in
          let? r := add_transitions t keys unchecked transitions in
          let '(keys, unchecked, transitions_2) := r in
          let states := states ++ [State pattern_index (length transitions) (length transitions_2)] in
          match tl unchecked with
          | [] => Some (Built (states, transitions_2))
          | _ => build_loop fuel allow_ambiguity n keys (tl unchecked) states transitions_2
          end
        end
      end
    end.

  (* build, build_dfa: string_matcher.hpp:423-436, 700-733 *)
  Definition build (fuel : nat) (allow_ambiguity : bool) (b : builder) : option (outcome matcher) :=
    let '(_, (keys, unchecked)) := ensure_state [] [] (b_start b) in
    let? r := build_loop fuel allow_ambiguity (b_nfa b) keys unchecked [] [] in
    match r with
    | Built (states, transitions) => Some (Built (Matcher (b_patterns b) states transitions))
    | Ambiguity i j => Some (Ambiguity i j)
    end.

  (* std::lower_bound on the transitions of a state, which are partitioned by cmp *)
  Fixpoint find_transition (l : list transition) (ch : Z) : option transition :=
    match l with
    | [] => None
    | t :: l => if Z.ltb (tr_last t) ch then find_transition l ch else Some t
    end.

  (* match: string_matcher.hpp:339-368.  Some None: no match. *)
  Fixpoint match_loop (m : matcher) (s : state) (string : list Z) : option (option Z) :=
    match string with
    | [] =>
      match st_pattern s with
      | None => Some None
      | Some i => let? ident := nth_error (m_patterns m) i in Some (Some ident)
      end
    | ch :: string =>
      if negb ((st_begin s <=? st_end s) && (st_end s <=? length (m_transitions m))) then None
      else
        match find_transition (firstn (st_end s - st_begin s) (skipn (st_begin s) (m_transitions m))) ch with
        | None => Some None
        | Some t =>
          if Z.leb (tr_first t) ch then
            let? s := nth_error (m_states m) (tr_target t) in
            match_loop m s string
          else Some None
        end
    end.
  Definition match_string (m : matcher) (string : list Z) : option (option Z) :=
    match m_patterns m with
    | [] => Some None
    | _ =>
      let? s := nth_error (m_states m) 0 in
      match_loop m s string
    end.
End Matcher.
Arguments outcome : clear implicits.
