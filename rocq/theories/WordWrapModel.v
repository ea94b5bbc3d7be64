(* Model of the word wrapping functions: /repo/src/archon/core/word_wrap.hpp and
   /repo/src/archon/core/word_wrap.cpp.

   None is undefined behaviour, a failed assertion, or lack of fuel (the theorems give
   sufficient fuel).  Indices are natural numbers.  std::size_t(-1) as an index is None.
   Memory allocation does not fail.  try_int_add, try_int_mul and try_int_cast are taken
   as exact; see IntProps. *)
From Coq Require Import ZArith Bool List.
From Verif Require Import ArrLib.
Import ListNotations.
Open Scope Z_scope.

(* struct Word, Geometry: word_wrap.hpp:184-197, 216-230 *)
Record word := Word { space_size : Z; word_size : Z }.
Record geom := Geom { line_size : Z; next_geometry_index : nat }.

Section WordWrap.
  Variable W : Z.   (* the number of bits of std::size_t *)
  Variable BW : Z.  (* the number of bits of badness_type *)

  Definition size_max : Z := 2 ^ W - 1.
  Definition badness_max : Z := 2 ^ BW - 1.

  (* try_int_add, and the greatest value on overflow: word_wrap.cpp:62-63, 122-123, 127-128 *)
  Definition add_sat (a b : Z) : Z := if a + b <=? size_max then a + b else size_max.

  (* the inner loop of greedy(), from `next`: word_wrap.cpp:67-92.  The result is the first
     word of the next line, or None if there is none. *)
  Fixpoint greedy_line (num_words : nat) (ws : list word) (trailing_space_size lsize cursor_pos : Z)
    (word_index : nat) : option nat :=
    match ws with
    | [] => None
    | word :: ws =>
      if lsize >=? cursor_pos then
        let rest := lsize - cursor_pos in
        if rest >=? word_size word then
          let rest := rest - word_size word in
          if rest >=? space_size word then
            let rest := rest - space_size word in
            if negb (Nat.eqb word_index (num_words - 1)) then
              greedy_line num_words ws trailing_space_size lsize (lsize - rest) (S word_index)
            else if rest >=? trailing_space_size then
              let rest := rest - trailing_space_size in
              greedy_line num_words ws trailing_space_size lsize (lsize - rest) (S word_index)
            else Some word_index
          else Some word_index
        else Some word_index
      else Some word_index
    end.

  (* greedy(), from `first`: word_wrap.cpp:53-97.  words[i] is the head of skipn i words. *)
  Fixpoint greedy_loop (fuel : nat) (words : list word) (trailing_space_size : Z) (geometry : list geom)
    (geom_index word_index : nat) : option (list nat) :=
    match fuel with
    | O => None
    | S fuel =>
      let? g := nth_error geometry geom_index in
      let? word := nth_error words word_index in
      let cursor_pos := word_size word in
      let cursor_pos := if Nat.eqb word_index 0 then add_sat cursor_pos (space_size word) else cursor_pos in
      match greedy_line (length words) (skipn (S word_index) words) trailing_space_size (line_size g) cursor_pos (S word_index) with
      | None => Some []
      | Some word_index =>
        let? l := greedy_loop fuel words trailing_space_size geometry (next_geometry_index g) word_index in
        Some (word_index :: l)
      end
    end.

  (* greedy(): word_wrap.cpp:39-98 *)
  Definition greedy (words : list word) (trailing_space_size : Z) (geometry : list geom)
    (first_geometry_index : nat) : option (list nat) :=
    if (length words <? 2)%nat then Some []
    else greedy_loop (length words) words trailing_space_size geometry first_geometry_index 0.

  (* KnuthWrapper *)

  (* WordSlot, LineSlot, Result, Breakpoint: word_wrap.hpp:102-165.  A CacheSlot is its
     result_ident. *)
  Record word_slot := WordSlot { ws_word_size : Z; ws_cursor_pos : Z }.
  Record line_slot := LineSlot { ls_size : Z; ls_geom_index : nat; ls_word_index : nat;
                                 ls_badness : Z; ls_result_index : nat }.
  Inductive kind := Indefinite | Definite (breakpoint_index : option nat).
  Record result := Result { res_badness : Z; res_kind : kind }.
  Record breakpoint := Breakpoint { bp_word_index : nat; bp_next : option nat }.

  Inductive label := MoveRight1 | MoveRight2 | MoveDown | MoveLeft | MoveUp | Done.

  (* The local variables and data members of wrap() *)
  Record state := State {
    label_ : label;
    word_index : nat; line_index : nat; result_index : nat;
    lsize : Z; cursor_pos : Z; bound : Z;
    word_slots : list word_slot; line_slots : list line_slot; cache : list nat;
    results : list result; breakpoints : list breakpoint; unused : option nat }.

  Variable words : list word.
  Let num_words := length words.

  (* the adjusted word sizes: word_wrap.cpp:116-131 *)
  Definition adjusted_size (trailing_space_size : Z) (i : nat) (w : word) : Z :=
    let size := word_size w in
    let size := if Nat.eqb i 0 then add_sat size (space_size w) else size in
    if Nat.eqb i (num_words - 1) then add_sat size trailing_space_size else size.
  Fixpoint init_word_slots (trailing_space_size : Z) (i : nat) (ws : list word) : list word_slot :=
    match ws with
    | [] => []
    | w :: ws => WordSlot (adjusted_size trailing_space_size i w) 0 :: init_word_slots trailing_space_size (S i) ws
    end.

  (* the geometries of the first n lines, and the greatest geometry index, but for that of
     the first line: word_wrap.cpp:133-154 *)
  Fixpoint init_line_slots (geometry : list geom) (n : nat) (geom_index max_geom_index : nat)
    : option (list line_slot * nat) :=
    match n with
    | O => Some ([], max_geom_index)
    | S n =>
      let? g := nth_error geometry geom_index in
      let slot := LineSlot (line_size g) geom_index 0 0 0 in
      match n with
      | O => Some ([slot], max_geom_index)
      | _ =>
        let geom_index := next_geometry_index g in
        let max_geom_index := if (max_geom_index <? geom_index)%nat then geom_index else max_geom_index in
        let? (slots, max_geom_index) := init_line_slots geometry n geom_index max_geom_index in
        Some (slot :: slots, max_geom_index)
      end
    end.

  (* alloc_breakpoint: word_wrap.cpp:169-182 *)
  Definition alloc_breakpoint (bps : list breakpoint) (unused : option nat) (word_index : nat) (next : option nat)
    : option (nat * list breakpoint * option nat) :=
    match unused with
    | None => Some (length bps, bps ++ [Breakpoint word_index next], None)
    | Some index =>
      let? b := nth_error bps index in
      let? bps := set_nth bps index (Breakpoint word_index next) in
      Some (index, bps, bp_next b)
    end.

  (* recycle_breakpoint: word_wrap.cpp:183-191 *)
  Definition recycle_breakpoint (bps : list breakpoint) (unused : option nat) (r : result)
    : option (list breakpoint * option nat) :=
    match res_kind r with
    | Definite (Some index) =>
      let? b := nth_error bps index in
      let? bps := set_nth bps index (Breakpoint (bp_word_index b) unused) in
      Some (bps, Some index)
    | _ => Some (bps, unused)
    end.

  Definition is_indefinite (r : result) : bool := match res_kind r with Indefinite => true | _ => false end.

  (* word_wrap.cpp:200-210 *)
  Definition move_right_1 (s : state) : option state :=
    let '(State _ wi li ri _ _ bound wss lss cache results bps unused) := s in
    let? r := nth_error results ri in
    if negb (res_badness r =? badness_max) then None else
    if negb (is_indefinite r) then None else
    let? line := nth_error lss li in
    let? word := nth_error wss wi in
    let? wss := set_nth wss wi (WordSlot (ws_word_size word) 0) in
    Some (State MoveRight2 wi li ri (ls_size line) (ws_word_size word) bound wss lss cache results bps unused).

  (* word_wrap.cpp:212-238 *)
  Definition move_right_2 (s : state) : option state :=
    let '(State _ wi li ri lsize cursor bound wss lss cache results bps unused) := s in
    let wi := S wi in
    if Nat.eqb wi num_words then
      let? results := set_nth results ri (Result 0 (Definite None)) in
      Some (State MoveUp wi li ri lsize cursor bound wss lss cache results bps unused)
    else
      let? slot := nth_error wss wi in
      let? word := nth_error words wi in
      let size := ws_word_size slot in
      let stay := Some (State MoveDown wi li ri lsize cursor bound wss lss cache results bps unused) in
      if lsize >=? cursor then
        let rest := lsize - cursor in
        if rest >=? size then
          let rest := rest - size in
          if rest >=? space_size word then
            let rest := rest - space_size word in
            let? wss := set_nth wss wi (WordSlot size cursor) in
            Some (State MoveRight2 wi li ri lsize (lsize - rest) bound wss lss cache results bps unused)
          else stay
        else stay
      else stay.

  (* the badness of breaking the line; None on overflow: word_wrap.cpp:243-250 *)
  Definition line_badness (lsize cursor : Z) : option Z :=
    if cursor <? lsize then
      let excess := lsize - cursor in
      if (excess <=? badness_max) && (excess * excess <=? badness_max) then Some (excess * excess) else None
    else Some 0.

  (* word_wrap.cpp:240-286 *)
  Definition move_down (s : state) : option state :=
    let '(State _ wi li ri lsize cursor bound wss lss cache results bps unused) := s in
    match line_badness lsize cursor with
    | None => Some (State MoveUp wi li ri lsize cursor bound wss lss cache results bps unused)
    | Some badness =>
      if badness >? bound then
        let? r := nth_error results ri in
        if badness <? res_badness r then
          let? (bps, unused) := recycle_breakpoint bps unused r in
          let? results := set_nth results ri (Result badness Indefinite) in
          Some (State MoveUp wi li ri lsize cursor bound wss lss cache results bps unused)
        else Some (State MoveUp wi li ri lsize cursor bound wss lss cache results bps unused)
      else
        let? line := nth_error lss li in
        let? lss := set_nth lss li (LineSlot (ls_size line) (ls_geom_index line) (ls_word_index line) badness ri) in
        let li := S li in
        let? line := nth_error lss li in
        let? lss := set_nth lss li (LineSlot (ls_size line) (ls_geom_index line) wi (ls_badness line) (ls_result_index line)) in
        let bound := bound - badness in
        let cache_index := (ls_geom_index line * num_words + wi)%nat in
        let? ident := nth_error cache cache_index in
        match ident with
        | S ri =>
          let? r := nth_error results ri in
          if (res_badness r =? 0) && is_indefinite r then None
          else if is_indefinite r && (res_badness r <=? bound) then
            let? results := set_nth results ri (Result badness_max (res_kind r)) in
            Some (State MoveRight1 wi li ri lsize cursor bound wss lss cache results bps unused)
          else Some (State MoveUp wi li ri lsize cursor bound wss lss cache results bps unused)
        | O =>
          let ri := length results in
          let results := results ++ [Result badness_max Indefinite] in
          let? cache := set_nth cache cache_index (S ri) in
          Some (State MoveRight1 wi li ri lsize cursor bound wss lss cache results bps unused)
        end
    end.

  (* word_wrap.cpp:288-298 *)
  Definition move_left (s : state) : option state :=
    let '(State _ wi li ri lsize cursor bound wss lss cache results bps unused) := s in
    match wi with
    | O => None
    | S wi =>
      let? line := nth_error lss li in
      if (ls_word_index line <? wi)%nat then
        let? slot := nth_error wss wi in
        Some (State MoveDown wi li ri lsize (ws_cursor_pos slot) bound wss lss cache results bps unused)
      else Some (State MoveUp wi li ri lsize cursor bound wss lss cache results bps unused)
    end.

  (* word_wrap.cpp:300-335 *)
  Definition move_up (s : state) : option state :=
    let '(State _ wi li ri lsize cursor bound wss lss cache results bps unused) := s in
    match li with
    | O => Some (State Done wi li ri lsize cursor bound wss lss cache results bps unused)
    | S li' =>
      let? line := nth_error lss li in
      let wi := ls_word_index line in
      let li := li' in
      let? line := nth_error lss li in
      let lsize := ls_size line in
      let? below := nth_error results ri in
      let ri := ls_result_index line in
      let? r := nth_error results ri in
      let badness := ls_badness line in
      let bound := bound + badness in
      let badness := badness + res_badness below in
      if (badness <=? badness_max) && (badness <? res_badness r) then
        let? (bps, unused) := recycle_breakpoint bps unused r in
        match res_kind below with
        | Definite next =>
          let? (index, bps, unused) := alloc_breakpoint bps unused wi next in
          let? results := set_nth results ri (Result badness (Definite (Some index))) in
          if badness <=? bound then
            if badness =? 0 then Some (State MoveUp wi li ri lsize cursor bound wss lss cache results bps unused)
            else Some (State MoveLeft wi li ri lsize cursor (badness - 1) wss lss cache results bps unused)
          else Some (State MoveLeft wi li ri lsize cursor bound wss lss cache results bps unused)
        | Indefinite =>
          let? results := set_nth results ri (Result badness Indefinite) in
          if badness >? bound then
            Some (State MoveLeft wi li ri lsize cursor bound wss lss cache results bps unused)
          else None
        end
      else Some (State MoveLeft wi li ri lsize cursor bound wss lss cache results bps unused)
    end.

  Definition step (s : state) : option state :=
    match label_ s with
    | MoveRight1 => move_right_1 s
    | MoveRight2 => move_right_2 s
    | MoveDown => move_down s
    | MoveLeft => move_left s
    | MoveUp => move_up s
    | Done => Some s
    end.
  Fixpoint run (fuel : nat) (s : state) : option state :=
    match label_ s, fuel with
    | Done, _ => Some s
    | _, O => None
    | _, S fuel => let? s := step s in run fuel s
    end.

  (* word_wrap.cpp:344-349 *)
  Fixpoint gather (fuel : nat) (bps : list breakpoint) (i : option nat) : option (list nat) :=
    match i with
    | None => Some []
    | Some i =>
      match fuel with
      | O => None
      | S fuel =>
        let? b := nth_error bps i in
        let? l := gather fuel bps (bp_next b) in
        Some (bp_word_index b :: l)
      end
    end.

  (* the outcome of wrap(): the breakpoints and m_badness, or an exception *)
  Inductive wrapped := Wrapped (breakpoints : list nat) (badness : Z) | Overflow.

  (* KnuthWrapper::wrap(): word_wrap.cpp:101-351.  m_badness is the value of the data member
     before the call. *)
  Definition knuth_wrap (fuel : nat) (m_badness trailing_space_size : Z) (geometry : list geom)
    (first_geometry_index : nat) : option wrapped :=
    if (num_words <? 2)%nat then Some (Wrapped [] m_badness)
    else
      let wss := init_word_slots trailing_space_size 0 words in
      let? (lss, max_geom_index) := init_line_slots geometry num_words first_geometry_index 0 in
      let num_geometries := S max_geom_index in
      if Z.of_nat num_words * Z.of_nat num_geometries >? size_max then Some Overflow
      else
        let cache := repeat 0%nat (num_words * num_geometries) in
        let? line := nth_error lss 0 in
        let? lss := set_nth lss 0 (LineSlot (ls_size line) (ls_geom_index line) 0 (ls_badness line) (ls_result_index line)) in
        let? s := run fuel (State MoveRight1 0 0 0 0 0 badness_max wss lss cache
                              [Result badness_max Indefinite] [] None) in
        let? r := nth_error (results s) (result_index s) in
        match res_kind r with
        | Indefinite => Some Overflow
        | Definite i =>
          let? l := gather num_words (breakpoints s) i in
          Some (Wrapped l (res_badness r))
        end.
End WordWrap.
