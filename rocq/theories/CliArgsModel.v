(* Model of how the arguments of a pattern function are produced from a match, and of how it
   is checked that a pattern function fits a pattern (src/archon/cli/impl/
   pattern_args_parser.hpp, pattern_func_checker.hpp, pattern_action.hpp).

   Indexes and sizes (std::size_t) are natural numbers: overflow is not modelled, because it
   takes vectors that do not fit in memory.  Allocation does not fail.  Pointers to elements
   of vectors are the elements themselves.  None stands for a failing assertion, an access
   outside of a vector, or lack of fuel.

   The types of parameters are data here, while they are template arguments in the code.
   Decomposition of types is therefore by recursion on types rather than by overloading and
   specialization. *)
From Coq Require Import List Arith Bool.
From Verif Require Import ArrLib CliPatternModel CliSpecModel.
Import ListNotations.

(* Desc: pattern_args_parser.hpp:90-101 *)
Record desc := Desc { d_elem : elem; d_value : nat }.

(* Cursor, Frame: pattern_args_parser.hpp:123-132 *)
Record dframe := Dframe { f_seq : seq; f_elem_index : nat; f_begin_pos : nat; f_desc_index : nat }.

(* MatchPos: pattern_args_parser.hpp:84-87 *)
Definition match_pos := (nat * nat)%type.

(* pos_in_range: pattern_args_parser.hpp:141-143 *)
Definition pos_in_range (mp : match_pos) (f : dframe) (e : elem) : bool :=
  (f_begin_pos f <=? fst mp) && (fst mp <? e_end_pos e).

(* next_elem: pattern_args_parser.hpp:145-148 *)
Definition next_elem (f : dframe) (e : elem) : dframe :=
  Dframe (f_seq f) (S (f_elem_index f)) (e_end_pos e) (f_desc_index f).

Section Descs.
  Variable st : structure.

  (* frame.cursor = { &seq, 0 }: pattern_args_parser.hpp:154-156, 233-235 *)
  Definition enter_seq (f : dframe) (seq_index : nat) : option dframe :=
    let? q := nth_error (ps_seqs st) seq_index in
    Some (Dframe q 0 (f_begin_pos f) (f_desc_index f)).

  (* enter_subseq: pattern_args_parser.hpp:150-157.  What is pushed is left to the caller. *)
  Definition enter_subseq (f : dframe) (e : elem) : option dframe :=
    match e_type e with
    | t_opt | t_rep => enter_seq f (e_index e)
    | _ => None
    end.

  (* the first branch that is not over before the position: pattern_args_parser.hpp:215-226 *)
  Fixpoint find_branch (cnt : nat) (offset i : nat) (pos : nat) : option nat :=
    match cnt with
    | O => None
    | S cnt =>
      let? q := nth_error (ps_seqs st) (offset + i) in
      if q_end_pos q <=? pos then find_branch cnt offset (S i) pos else Some i
    end.

  (* ++descs[i].value: pattern_args_parser.hpp:253 *)
  Definition bump (descs : list desc) (i : nat) : option (list desc) :=
    let? d := nth_error descs i in
    set_nth descs i (Desc (d_elem d) (S (d_value d))).

  (* From the label again: pattern_args_parser.hpp:168-267.  mi is match_pos_index, and mp is
     match_pos, which has been loaded already, except in the code after the label
     next_match_pos (161-166), which is where a symbol leads. *)
  Fixpoint descs_loop (fuel : nat) (mps : list match_pos) (f : dframe) (stack : list dframe) (mi : nat) (mp : match_pos)
    (descs : list desc) : option (list desc) :=
    match fuel with
    | O => None
    | S fuel =>
      if f_elem_index f <? q_num_elems (f_seq f) then
        let? e := nth_error (ps_elems st) (q_elems_offset (f_seq f) + f_elem_index f) in
        match e_type e with
        | t_sym =>                                                         (* 174-183 *)
          if pos_in_range mp f e then
            let descs := if e_is_param e then descs ++ [Desc e (snd mp)] else descs in
            let f := next_elem f e in
            let mi := S mi in
            let? mp := nth_error mps mi in
            descs_loop fuel mps f stack mi mp descs
          else None
        | t_opt =>                                                         (* 184-195 *)
          if negb (pos_in_range mp f e) then descs_loop fuel mps (next_elem f e) stack mi mp (descs ++ [Desc e 0])
          else
            let? f2 := enter_subseq f e in
            descs_loop fuel mps f2 (f :: stack) mi mp (descs ++ [Desc e 1])
        | t_rep =>                                                         (* 196-203 *)
          if pos_in_range mp f e then
            let f := Dframe (f_seq f) (f_elem_index f) (f_begin_pos f) (length descs) in
            let? f2 := enter_subseq f e in
            descs_loop fuel mps f2 (f :: stack) mi mp (descs ++ [Desc e 1])
          else None
        | t_alt =>                                                         (* 204-237 *)
          let? a := nth_error (ps_alts st) (e_index e) in
          let? branch_index :=
            (if negb (pos_in_range mp f e) then
               if a_nullable_seq_index a <? a_num_seqs a then Some (a_nullable_seq_index a) else None
             else find_branch (a_num_seqs a) (a_seqs_offset a) 0 (fst mp)) in
          if branch_index <? a_num_seqs a then
            let? f2 := enter_seq f (a_seqs_offset a + branch_index) in
            descs_loop fuel mps f2 (f :: stack) mi mp (descs ++ [Desc e branch_index])
          else None
        end
      else
        match stack with
        | f :: stack =>                                                    (* 242-264 *)
          let? e := nth_error (ps_elems st) (q_elems_offset (f_seq f) + f_elem_index f) in
          match e_type e with
          | t_sym => None
          | t_rep =>
            if pos_in_range mp f e then
              let? descs := bump descs (f_desc_index f) in
              let? f2 := enter_subseq f e in
              descs_loop fuel mps f2 (f :: stack) mi mp descs
            else descs_loop fuel mps (next_elem f e) stack mi mp descs
          | t_opt | t_alt => descs_loop fuel mps (next_elem f e) stack mi mp descs
          end
        | [] => if S mi =? length mps then Some descs else None            (* 266-267 *)
        end
    end.

  (* generate_descs: pattern_args_parser.hpp:113-268 *)
  Definition generate_descs (fuel : nat) (elem_seq_index : nat) (mps : list match_pos) : option (list desc) :=
    let? root := nth_error (ps_seqs st) elem_seq_index in
    let? mp := nth_error mps 0 in
    descs_loop fuel mps (Dframe root 0 0 0) [] 0 mp [].
End Descs.

(* ---- types of parameters ---- *)

(* Types of parameters of pattern functions: std::optional, std::vector, std::variant, bool,
   std::size_t, and types that only values can be of.  The operand of one of the first three
   types is either a tuple type (std::tuple, std::pair, std::array, or std::monostate) or
   another type.  The distinction is that made by the overloads of parse_pattern()
   (pattern_args_parser.hpp:311-340) and by the specializations of PatternFuncTupleChecker
   (pattern_func_checker.hpp:178-246).  A tuple type as a parameter in itself is not
   represented: there is no parser of values of tuple type. *)
Inductive ptype :=
| TValue (c : nat)
| TBool
| TSize
| TOptional (c : pclass)
| TVector (c : pclass)
| TVariant (cs : pclasses)
with pclass :=
| CTuple (ts : ptypes)
| CPlain (t : ptype)
with ptypes :=
| TNil
| TCons (t : ptype) (ts : ptypes)
with pclasses :=
| CNil
| CCons (c : pclass) (cs : pclasses).

Fixpoint count_types (ts : ptypes) : nat := match ts with TNil => 0 | TCons _ ts => S (count_types ts) end.
Fixpoint count_classes (cs : pclasses) : nat := match cs with CNil => 0 | CCons _ cs => S (count_classes cs) end.

(* What a parameter holds.  AParsed is the value that was parsed from an argument of the
   command line.  AUnset is whatever a value parser leaves behind when it fails.  The
   contents of an optional, of a vector, and of a variant are tuples; those that are not of
   tuple type are tuples of one. *)
Inductive parg :=
| AParsed (arg : text)
| AUnset
| ABool (b : bool)
| ASize (n : nat)
| ANone
| ASome (l : list parg)
| AVec (l : list (list parg))
| AVar (k : nat) (l : list parg).

(* State: pattern_args_parser.hpp:304-309.  What remains of the descs, whether there was an
   error, and the errors that were added to the accumulator, each of which is an argument
   index and an argument.  The code of the error is always bad_pattern_arg.  The lexeme of
   the symbol, which is also part of the message (433-434), is left out. *)
Notation parse_error := (nat * text)%type.
Record dstate := Dstate { ds_rest : list desc; ds_error : bool; ds_errors : list parse_error }.

(* next: pattern_args_parser.hpp:438-444 *)
Definition next (s : dstate) : option (desc * dstate) :=
  match ds_rest s with
  | d :: l => Some (d, Dstate l (ds_error s) (ds_errors s))
  | [] => None
  end.

Definition is_type (e : elem) (t : elem_type) : bool :=
  match e_type e, t with
  | t_sym, t_sym | t_opt, t_opt | t_rep, t_rep | t_alt, t_alt => true
  | _, _ => false
  end.

(* num_repetitions calls of parse_pattern(): pattern_args_parser.hpp:365-370 *)
Fixpoint repeat_parse (parse : dstate -> option (bool * list parg * dstate)) (n : nat) (s : dstate) :
  option (bool * list (list parg) * dstate) :=
  match n with
  | O => Some (true, [], s)
  | S n =>
    let? (more, v, s) := parse s in
    if more : bool then
      let? (more, vs, s) := repeat_parse parse n s in
      Some (more, v :: vs, s)
    else Some (false, [v], s)
  end.

Section Parse.
  Variable st : structure.
  Variable args : list text.
  (* ValueParser::parse(), for each type: whether the argument is accepted *)
  Variable accepts : ptype -> text -> bool.

  (* from the label regular: pattern_args_parser.hpp:421-435 *)
  Definition parse_regular (t : ptype) (d : desc) (s : dstate) : option (bool * parg * dstate) :=
    if is_type (d_elem d) t_sym then
      let? arg := nth_error args (d_value d) in
      if accepts t arg then Some (true, AParsed arg, s)
      else
        let? _ := nth_error (ps_syms st) (e_index (d_elem d)) in
        Some (true, AUnset, Dstate (ds_rest s) true (ds_errors s ++ [(d_value d, arg)]))
    else None.

  (* parse_elem: pattern_args_parser.hpp:342-436.  The boolean is what is returned. *)
  Fixpoint parse_elem (t : ptype) (s : dstate) {struct t} : option (bool * parg * dstate) :=
    let? (d, s) := next s in
    match t with
    | TOptional c =>                                                       (* 342-351 *)
      if is_type (d_elem d) t_opt then
        if d_value d <? 2 then
          if negb (0 <? d_value d) then Some (true, ANone, s)
          else let? (more, v, s) := parse_pattern c s in Some (more, ASome v, s)
        else None
      else None
    | TVector c =>                                                         (* 353-371 *)
      if is_type (d_elem d) t_opt && negb (0 <? d_value d) then Some (true, AVec [], s)
      else
        let? (d, s) := (if is_type (d_elem d) t_opt then next s else Some (d, s)) in
        if is_type (d_elem d) t_rep then
          let? (more, vs, s) := repeat_parse (parse_pattern c) (d_value d) s in Some (more, AVec vs, s)
        else None
    | TVariant cs =>                                                       (* 373-388 *)
      if is_type (d_elem d) t_alt then
        if d_value d <? count_classes cs then
          let? (more, v, s) := parse_variant cs (d_value d) s in Some (more, AVar (d_value d) v, s)
        else None
      else None
    | TBool =>                                                             (* 393-400 *)
      if negb (is_type (d_elem d) t_opt) then parse_regular t d s
      else if e_collapsible (d_elem d) then Some (true, ABool (0 <? d_value d), s)
      else None
    | TSize =>                                                             (* 401-419 *)
      if negb (is_type (d_elem d) t_opt) then
        if negb (is_type (d_elem d) t_rep) then parse_regular t d s
        else if e_collapsible (d_elem d) then Some (true, ASize (d_value d), s)
        else None
      else if negb (0 <? d_value d) then Some (true, ASize 0, s)
      else
        let? (d, s) := next s in
        if is_type (d_elem d) t_rep then
          if e_collapsible (d_elem d) then Some (true, ASize (d_value d), s) else None
        else None
    | TValue _ => parse_regular t d s
    end
  (* parse_pattern: pattern_args_parser.hpp:311-340 *)
  with parse_pattern (c : pclass) (s : dstate) {struct c} : option (bool * list parg * dstate) :=
    match c with
    | CTuple ts => parse_tuple ts s
    | CPlain t => let? (more, v, s) := parse_elem t s in Some (more, [v], s)
    end
  (* core::for_each_tuple_elem_a(): core/impl/utility.hpp:180-188 *)
  with parse_tuple (ts : ptypes) (s : dstate) {struct ts} : option (bool * list parg * dstate) :=
    match ts with
    | TNil => Some (true, [], s)
    | TCons t ts =>
      let? (more, v, s) := parse_elem t s in
      if more : bool then
        let? (more, vs, s) := parse_tuple ts s in Some (more, v :: vs, s)
      else Some (false, [v], s)
    end
  (* core::dispatch() and ParseVariant: pattern_args_parser.hpp:373-378, 387 *)
  with parse_variant (cs : pclasses) (k : nat) (s : dstate) {struct cs} : option (bool * list parg * dstate) :=
    match cs, k with
    | CNil, _ => None
    | CCons c _, O => parse_pattern c s
    | CCons _ cs, S k => parse_variant cs k s
    end.

  (* State::parse: pattern_args_parser.hpp:295-301.  What the parameters hold, whether they
     were successfully parsed, and the errors.  PatternArgsParser::parse() (453-460) only
     creates the state. *)
  Definition parse (ts : ptypes) (descs : list desc) : option (list parg * bool * list parse_error) :=
    let? (complete, v, s) := parse_tuple ts (Dstate descs false []) in
    if negb complete || (match ds_rest s with [] => true | _ => false end) then
      if complete || ds_error s then Some (v, negb (ds_error s), ds_errors s) else None
    else None.

  (* FuncExecPatternAction::invoke: pattern_action.hpp:161-181.  The arguments that the
     function is called with, if it is called, and the errors. *)
  Definition invoke (ts : ptypes) (has_error : bool) (descs : list desc) : option (option (list parg) * list parse_error) :=
    let? (v, success, errors) := parse ts descs in
    Some (if success && negb has_error then Some v else None, errors).
End Parse.

(* ---- does a function fit a pattern ---- *)

Section Check.
  Variable st : structure.

  (* the loop of check_tuple(): pattern_func_checker.hpp:302-314.  room is the number of
     entries of the array that are not assigned yet. *)
  Fixpoint param_elems (cnt : nat) (i : nat) (room : nat) : option (list elem) :=
    match cnt with
    | O => if room =? 0 then Some [] else None
    | S cnt =>
      let? e := nth_error (ps_elems st) i in
      if e_is_param e then
        match room with
        | O => None
        | S room => let? l := param_elems cnt (S i) room in Some (e :: l)
        end
      else param_elems cnt (S i) room
    end.

  (* the first parameter of a sequence: pattern_func_checker.hpp:114-120, 348-361 *)
  Fixpoint first_param (cnt : nat) (i : nat) : option (option elem) :=
    match cnt with
    | O => Some None
    | S cnt =>
      let? e := nth_error (ps_elems st) i in
      if e_is_param e then Some (Some e) else first_param cnt (S i)
    end.

  (* PatternFuncParamChecker::check: pattern_func_checker.hpp:98-128, 139-142, 153-156,
     167-170, together with check_opt_param(), check_rep_param(), and check_alt_param():
     pattern_func_checker.hpp:321-382 *)
  Fixpoint check_param (t : ptype) (e : elem) {struct t} : option bool :=
    match t with
    | TValue _ =>
      if is_type e t_sym then Some true
      else if e_is_param e then Some false else None
    | TBool =>
      if is_type e t_sym then Some true
      else if e_is_param e then Some (is_type e t_opt && e_collapsible e) else None
    | TSize =>
      if is_type e t_sym then Some true
      else if e_is_param e then
        if is_type e t_rep || is_type e t_alt then Some (e_collapsible e)
        else if is_type e t_opt then
          let? q := nth_error (ps_seqs st) (e_index e) in
          if q_num_params q =? 1 then
            let? o := first_param (q_num_elems q) (q_elems_offset q) in
            match o with
            | Some e2 => Some (is_type e2 t_rep && e_collapsible e2)
            | None => Some false
            end
          else Some false
        else Some false
      else None
    | TOptional c =>
      if is_type e t_opt then
        let? q := nth_error (ps_seqs st) (e_index e) in
        check_class c q
      else Some false
    | TVector c =>
      if is_type e t_rep then
        let? q := nth_error (ps_seqs st) (e_index e) in
        check_class c q
      else if is_type e t_opt then
        let? q := nth_error (ps_seqs st) (e_index e) in
        if q_num_params q =? 1 then
          let? o := first_param (q_num_elems q) (q_elems_offset q) in
          match o with
          | Some e2 =>
            if is_type e2 t_rep then
              let? q2 := nth_error (ps_seqs st) (e_index e2) in
              check_class c q2
            else Some false
          | None => Some false
          end
        else Some false
      else Some false
    | TVariant cs =>
      if is_type e t_alt then
        let? a := nth_error (ps_alts st) (e_index e) in
        if a_num_seqs a =? count_classes cs then check_branches cs (a_seqs_offset a) else Some false
      else Some false
    end
  (* PatternFuncTupleChecker::check: pattern_func_checker.hpp:178-246.  A type that is not a
     tuple type is checked as a tuple of one (187).  check_tuple(): 296-318. *)
  with check_class (c : pclass) (q : seq) {struct c} : option bool :=
    match c with
    | CTuple ts =>
      if q_num_params q =? count_types ts then
        let? l := param_elems (q_num_elems q) (q_elems_offset q) (count_types ts) in
        check_types ts l
      else Some false
    | CPlain t =>
      if q_num_params q =? 1 then
        let? l := param_elems (q_num_elems q) (q_elems_offset q) 1 in
        match l with
        | e :: _ => check_param t e
        | [] => None
        end
      else Some false
    end
  (* ParamFunc: pattern_func_checker.hpp:253-262, 315 *)
  with check_types (ts : ptypes) (l : list elem) {struct ts} : option bool :=
    match ts, l with
    | TNil, _ => Some true
    | TCons t ts, e :: l =>
      let? b := check_param t e in
      if b : bool then check_types ts l else Some false
    | TCons _ _, [] => None
    end
  (* BranchFunc: pattern_func_checker.hpp:265-276, 378 *)
  with check_branches (cs : pclasses) (seq_index : nat) {struct cs} : option bool :=
    match cs with
    | CNil => Some true
    | CCons c cs =>
      let? q := nth_error (ps_seqs st) seq_index in
      let? b := check_class c q in
      if b : bool then check_branches cs (S seq_index) else Some false
    end.

  (* PatternFuncChecker::check: pattern_func_checker.hpp:286-293.  This is what
     FuncExecPatternAction::check() returns: pattern_action.hpp:156-159. *)
  Definition check (ts : ptypes) (seq_index : nat) : option bool :=
    let? q := nth_error (ps_seqs st) seq_index in
    check_class (CTuple ts) q.
End Check.
