(* Model of the command-line pattern matcher: construction of the DFA from the NFA over
   positions, and matching (src/archon/cli/impl/pattern_matcher.hpp).

   std::map is a list of pairs in increasing order of keys.  Of a pattern specification,
   only the index of its sequence of elements and the flag telling whether it is delegating
   are modelled.  Of an error, only the error code and the numbers that go into the message
   are modelled.  Bad stands for a failing assertion, an access outside of a vector, or lack
   of fuel. *)
From Coq Require Import List Arith Bool.
From Verif Require Import CliPatternModel ArrLib.
Import ListNotations.

(* error codes, with the ordinals of the message: pattern_matcher.hpp:214-217, 257-261, 290-293 *)
Inductive spec_error :=
| cross_pattern_ambiguity (pattern_1 pattern_2 : nat)
| positional_ambiguity (pattern sym_1 sym_2 : nat)
| prefix_deleg_pattern (pattern : nat).

Inductive outcome (A : Type) := Ok (a : A) | Err (e : spec_error) | Bad.
Arguments Ok {A}. Arguments Err {A}. Arguments Bad {A}.
Definition bind {A B} (m : outcome A) (k : A -> outcome B) : outcome B :=
  match m with Ok a => k a | Err e => Err e | Bad => Bad end.
Definition get {A} (o : option A) : outcome A := match o with Some a => Ok a | None => Bad end.
Notation "'let!' x := m 'in' k" := (bind m (fun x => k)) (at level 200, x pattern, m at level 100, k at level 200).

(* PatternMatcherConfig: pattern_matcher.hpp:53-56 *)
Record mconfig := Mconfig { allow_cross : bool; allow_positional : bool }.

(* State: pattern_matcher.hpp:102-106.  The set of positions is a range in the vector of
   elements of frozen position sets. *)
Record dstate := Dstate { d_positions : nat * nat; d_finalpos : option nat; d_transitions : list (psym * nat) }.

(* m_frozen_position_set_elems, m_states and state_map: pattern_matcher.hpp:118-119, 180 *)
Record dfa := Dfa { f_elems : list nat; f_states : list dstate; f_map : list ((nat * nat) * nat) }.

(* The elements in a range *)
Definition frozen (elems : list nat) (r : nat * nat) : list nat := firstn (snd r - fst r) (skipn (fst r) elems).

Fixpoint list_eqb (a b : list nat) : bool :=
  match a, b with
  | [], [] => true
  | x :: a, y :: b => (x =? y) && list_eqb a b
  | _, _ => false
  end.

(* std::map::find() with the comparison of pattern_matcher.hpp:161-177.  Two ranges are
   equivalent with respect to lexicographical comparison if they have the same contents, so
   the map is searched for such a range; the order of the entries plays no role. *)
Fixpoint find_state (elems : list nat) (r : nat * nat) (m : list ((nat * nat) * nat)) : option nat :=
  match m with
  | [] => None
  | (r2, i) :: m => if list_eqb (frozen elems r) (frozen elems r2) then Some i else find_state elems r m
  end.

(* std::map::find() and the assignment through std::map::operator[] for maps from symbols *)
Fixpoint map_find {A} (s : psym) (m : list (psym * A)) : option A :=
  match m with
  | [] => None
  | (s2, a) :: m => if psym_ltb s s2 then None else if psym_ltb s2 s then map_find s m else Some a
  end.
Fixpoint map_put {A} (s : psym) (a : A) (m : list (psym * A)) : list (psym * A) :=
  match m with
  | [] => [(s, a)]
  | (s2, a2) :: m' =>
    if psym_ltb s s2 then (s, a) :: m else if psym_ltb s2 s then (s2, a2) :: map_put s a m' else (s, a) :: m'
  end.

Section Construct.
  Variable n : nfa.
  Variable config : mconfig.
  Variable delegs : list bool. (* the delegation flags of the patterns *)

  (* get_position: nfa.hpp:128-131 *)
  Definition get_position (pos : nat) : outcome position := get (nth_error (n_positions n) pos).

  (* the search for the final position: pattern_matcher.hpp:196-218, over the elements of the
     range *)
  Fixpoint find_finalpos (set : list nat) (finalpos : option nat) : outcome (option nat) :=
    match set with
    | [] => Ok finalpos
    | pos :: set =>
      let! position := get_position pos in
      match p_follow position with
      | _ :: _ => find_finalpos set finalpos
      | [] =>
        match finalpos with
        | None => find_finalpos set (Some pos)
        | Some final =>
          let! prior_position := get_position final in
          if p_pattern prior_position <? p_pattern position then
            if allow_cross config then find_finalpos set finalpos
            else Err (cross_pattern_ambiguity (1 + p_pattern prior_position) (1 + p_pattern position))
          else Bad
        end
      end
    end.

  (* ensure_state: pattern_matcher.hpp:181-222 *)
  Definition ensure_state (d : dfa) (position_set : list nat) : outcome (dfa * nat) :=
    let frozen_begin := length (f_elems d) in
    let elems := f_elems d ++ position_set in
    let frozen_end := length elems in
    let frozen_position_set := (frozen_begin, frozen_end) in
    match find_state elems frozen_position_set (f_map d) with
    | Some state_index => Ok (Dfa (firstn frozen_begin elems) (f_states d) (f_map d), state_index)
    | None =>
      let state_index := length (f_states d) in
      let! finalpos := find_finalpos (frozen elems frozen_position_set) None in
      Ok (Dfa elems (f_states d ++ [Dstate frozen_position_set finalpos []])
            (f_map d ++ [(frozen_position_set, state_index)]), state_index)
    end.

  Definition mem (x : nat) (l : list nat) : bool := existsb (Nat.eqb x) l.

  (* the search for the origin of a conflicting transition: pattern_matcher.hpp:250-263.
     The list contains the positions of the state before the current one. *)
  Fixpoint find_origin (before : list nat) (symbol : psym) (pos_2 : nat) : outcome nat :=
    match before with
    | [] => Bad
    | pos_3 :: before =>
      let! position_2 := get_position pos_3 in
      if psym_eqb (p_sym position_2) symbol && mem pos_2 (p_follow position_2) then Ok pos_3
      else find_origin before symbol pos_2
    end.

  (* the insertion of the followers of a position: pattern_matcher.hpp:241-264 *)
  Fixpoint add_followers (before : list nat) (pos : nat) (position : position) (followers set : list nat) : outcome (list nat) :=
    match followers with
    | [] => Ok set
    | pos_2 :: followers =>
      let (set, was_inserted) := set_insert pos_2 set in
      if was_inserted || allow_positional config then add_followers before pos position followers set
      else
        let! pos_3 := find_origin before (p_sym position) pos_2 in
        Err (positional_ambiguity (1 + p_pattern position) (1 + pos_3) (1 + pos))
    end.

  (* target_sets: pattern_matcher.hpp:235-266.  The first list contains the positions of the
     state before the current one. *)
  Fixpoint make_targets (before set : list nat) (targets : list (psym * list nat)) : outcome (list (psym * list nat)) :=
    match set with
    | [] => Ok targets
    | pos :: set =>
      let! position := get_position pos in
      let! targets :=
        match p_follow position with
        | [] => Ok targets
        | _ :: _ =>
          let position_set := match map_find (p_sym position) targets with Some l => l | None => [] end in
          let! position_set := add_followers before pos position (p_follow position) position_set in
          Ok (map_put (p_sym position) position_set targets)
        end in
      make_targets (before ++ [pos]) set targets
    end.

  (* the addition of the transitions: pattern_matcher.hpp:268-297 *)
  Fixpoint add_transitions (d : dfa) (k : nat) (targets : list (psym * list nat)) : outcome dfa :=
    match targets with
    | [] => Ok d
    | (symbol, position_set) :: targets =>
      match position_set with
      | [] => Bad
      | _ :: _ =>
        let! (d, target_state_index) := ensure_state d position_set in
        let! state := get (nth_error (f_states d) k) in
        let! _ :=
          match d_transitions state, d_finalpos state with
          | [], Some pos =>
            let! position := get_position pos in
            let! is_deleg := get (nth_error delegs (p_pattern position)) in
            if is_deleg : bool then Err (prefix_deleg_pattern (1 + p_pattern position)) else Ok tt
          | _, _ => Ok tt
          end in
        let! states := get (set_nth (f_states d) k
          (Dstate (d_positions state) (d_finalpos state) (map_put symbol target_state_index (d_transitions state)))) in
        add_transitions (Dfa (f_elems d) states (f_map d)) k targets
      end
    end.

  (* the loop: pattern_matcher.hpp:224-300 *)
  Fixpoint dfa_loop (fuel : nat) (d : dfa) (num_finalized : nat) : outcome dfa :=
    match fuel with
    | O => Bad
    | S fuel =>
      let! state := get (nth_error (f_states d) num_finalized) in
      match d_transitions state with
      | _ :: _ => Bad
      | [] =>
        let! targets := make_targets [] (frozen (f_elems d) (d_positions state)) [] in
        let! d := add_transitions d num_finalized targets in
        if S num_finalized <? length (f_states d) then dfa_loop fuel d (S num_finalized)
        else Ok d
      end
    end.

  (* pattern_matcher.hpp:223-300 *)
  Definition build_dfa (fuel : nat) : outcome dfa :=
    let! (d, _) := ensure_state (Dfa [] [] []) (n_start n) in
    dfa_loop fuel d 0.
End Construct.

(* HistoryEntry: pattern_matcher.hpp:108-112 *)
Record hentry := Hentry { h_prior : nat; h_symbol : psym; h_arg : nat }.

(* PatternMatcher: pattern_matcher.hpp:114-121 *)
Record matcher := Matcher {
  m_delegs : list bool; m_num_args : nat; m_nfa : nfa; m_elems : list nat; m_states : list dstate;
  m_state : nat; m_history : list hentry
}.

(* constructor: pattern_matcher.hpp:136-301.  Patterns are given by the indexes of their
   sequences of elements and their delegation flags. *)
Definition make_matcher (fuel : nat) (st : structure) (patterns : list (nat * bool)) (num_args : nat) (config : mconfig) :
  outcome matcher :=
  match patterns with
  | [] => Bad
  | _ :: _ =>
    let! n := get (build_nfa st fuel (Nfa [] []) 0 (map fst patterns)) in
    let! d := build_dfa n config (map snd patterns) fuel in
    Ok (Matcher (map snd patterns) num_args n (f_elems d) (f_states d) 0 [])
  end.

(* consume: pattern_matcher.hpp:415-429.  The value tells whether the symbol was consumed. *)
Definition consume (m : matcher) (symbol : psym) (arg_index : nat) : outcome (matcher * bool) :=
  if arg_index <? m_num_args m then
    let! state := get (nth_error (m_states m) (m_state m)) in
    match map_find symbol (d_transitions state) with
    | Some new_state_index =>
      Ok (Matcher (m_delegs m) (m_num_args m) (m_nfa m) (m_elems m) (m_states m) new_state_index
            (m_history m ++ [Hentry (m_state m) symbol arg_index]), true)
    | None => Ok (m, false)
    end
  else Bad.

(* can_delegate: pattern_matcher.hpp:325-340 *)
Fixpoint any_deleg (m : matcher) (set : list nat) : outcome bool :=
  match set with
  | [] => Ok false
  | pos :: set =>
    let! position := get_position (m_nfa m) pos in
    let! is_deleg := get (nth_error (m_delegs m) (p_pattern position)) in
    if is_deleg : bool then Ok true else any_deleg m set
  end.
Definition can_delegate (m : matcher) : outcome bool :=
  let! state := get (nth_error (m_states m) (m_state m)) in
  any_deleg m (frozen (m_elems m) (d_positions state)).

(* can_consume: pattern_matcher.hpp:343-349 *)
Definition can_consume (m : matcher) : outcome bool :=
  let! state := get (nth_error (m_states m) (m_state m)) in
  Ok (match d_transitions state with [] => false | _ :: _ => true end).

(* is_match: pattern_matcher.hpp:352-362.  The value is the index of the pattern, if any.
   The access to the pattern is checked. *)
Definition is_match (m : matcher) : outcome (option nat) :=
  let! state := get (nth_error (m_states m) (m_state m)) in
  match d_finalpos state with
  | None => Ok None
  | Some pos =>
    let! position := get_position (m_nfa m) pos in
    let! _ := get (nth_error (m_delegs m) (p_pattern position)) in
    Ok (Some (p_pattern position))
  end.

(* backtrack, the search for the prior position: pattern_matcher.hpp:387-401, 405 *)
Fixpoint find_prior (m : matcher) (set : list nat) (symbol : psym) (pos : nat) : outcome nat :=
  match set with
  | [] => Bad
  | pos_2 :: set =>
    let! position := get_position (m_nfa m) pos_2 in
    if negb (psym_eqb (p_sym position) symbol) then find_prior m set symbol pos
    else if negb (mem pos (p_follow position)) then find_prior m set symbol pos
    else Ok pos_2
  end.

(* backtrack, from the label again: pattern_matcher.hpp:379-411.  The history is given in
   reverse.  The vector of match positions is filled from the end; the list contains what
   has been filled in. *)
Fixpoint backtrack_loop (m : matcher) (rev_history : list hentry) (state_index pos arg_index : nat)
  (match_positions : list (nat * nat)) : outcome (list (nat * nat)) :=
  let! position := get_position (m_nfa m) pos in
  let match_positions := (p_ipos position, arg_index) :: match_positions in
  match rev_history with
  | [] => if state_index =? 0 then Ok match_positions else Bad
  | entry :: rev_history =>
    let! prior_state := get (nth_error (m_states m) (h_prior entry)) in
    let! prior_pos := find_prior m (frozen (m_elems m) (d_positions prior_state)) (h_symbol entry) pos in
    backtrack_loop m rev_history (h_prior entry) prior_pos (h_arg entry) match_positions
  end.

(* backtrack: pattern_matcher.hpp:365-412.  The overflow check of the number of entries is
   left out. *)
Definition backtrack (m : matcher) : outcome (list (nat * nat)) :=
  let! state := get (nth_error (m_states m) (m_state m)) in
  let! pos := get (d_finalpos state) in
  backtrack_loop m (rev (m_history m)) (m_state m) pos (m_num_args m) [].
