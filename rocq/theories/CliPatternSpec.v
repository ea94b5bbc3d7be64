(* Independent specification of command-line patterns: patterns as trees, and the sequences
   of symbols they match. *)
From Coq Require Import List Arith Bool.
From Verif Require Import CliPatternModel.
Import ListNotations.

(* A pattern is a sequence of elements.  The symbols carry their position in the pattern.
   There is at least one branch in an alternatives construct. *)
Inductive telem :=
| ESym (ipos : nat) (s : psym)
| EOpt (q : tseq)
| ERep (q : tseq)
| EAlt (b : tbranches)
with tseq :=
| SNil
| SCons (e : telem) (q : tseq)
with tbranches :=
| BOne (q : tseq)
| BCons (q : tseq) (b : tbranches).

(* What a pattern matches: symbols together with the positions they are matched with.  The
   operand of a repetition is matched one or more times in succession. *)
Inductive m_elem : telem -> list (nat * psym) -> Prop :=
| m_sym : forall i s, m_elem (ESym i s) [(i, s)]
| m_opt_absent : forall q, m_elem (EOpt q) []
| m_opt_present : forall q w, m_seq q w -> m_elem (EOpt q) w
| m_rep_last : forall q w, m_seq q w -> m_elem (ERep q) w
| m_rep_more : forall q w1 w2, m_seq q w1 -> m_elem (ERep q) w2 -> m_elem (ERep q) (w1 ++ w2)
| m_alt : forall b w, m_branches b w -> m_elem (EAlt b) w
with m_seq : tseq -> list (nat * psym) -> Prop :=
| m_nil : m_seq SNil []
| m_cons : forall e q w1 w2, m_elem e w1 -> m_seq q w2 -> m_seq (SCons e q) (w1 ++ w2)
with m_branches : tbranches -> list (nat * psym) -> Prop :=
| m_one : forall q w, m_seq q w -> m_branches (BOne q) w
| m_this : forall q b w, m_seq q w -> m_branches (BCons q b) w
| m_other : forall q b w, m_branches b w -> m_branches (BCons q b) w.

(* The symbols of a pattern with their positions, from left to right *)
Fixpoint elem_syms (e : telem) : list (nat * psym) :=
  match e with
  | ESym i s => [(i, s)]
  | EOpt q | ERep q => seq_syms q
  | EAlt b => branches_syms b
  end
with seq_syms (q : tseq) : list (nat * psym) :=
  match q with
  | SNil => []
  | SCons e q => elem_syms e ++ seq_syms q
  end
with branches_syms (b : tbranches) : list (nat * psym) :=
  match b with
  | BOne q => seq_syms q
  | BCons q b => seq_syms q ++ branches_syms b
  end.

(* The symbols are numbered from left to right *)
Definition numbered (q : tseq) : Prop := map fst (seq_syms q) = List.seq 0 (length (seq_syms q)).

(* The flat representation of a tree: an element; the elements of a sequence from a given
   index; a sequence; the branches from a given index.  Indexes in the records refer to the
   vectors of the structure, and the flag of a sequence tells whether it matches the empty
   sequence of symbols. *)
Section Represents.
  Variable st : structure.

  Inductive rep_elem : elem -> telem -> Prop :=
  | rep_sym : forall e i s, e_type e = t_sym -> e_end_pos e = S i -> nth_error (ps_syms st) (e_index e) = Some s ->
      rep_elem e (ESym i s)
  | rep_opt : forall e q, e_type e = t_opt -> rep_seq (e_index e) q -> rep_elem e (EOpt q)
  | rep_rep : forall e q, e_type e = t_rep -> rep_seq (e_index e) q -> rep_elem e (ERep q)
  | rep_alt : forall e a b, e_type e = t_alt -> nth_error (ps_alts st) (e_index e) = Some a ->
      rep_branches (a_seqs_offset a) (a_num_seqs a) b -> rep_elem e (EAlt b)
  with rep_elems : nat -> nat -> tseq -> Prop :=
  | rep_nil : forall i, rep_elems i 0 SNil
  | rep_cons : forall i n e te q, nth_error (ps_elems st) i = Some e -> rep_elem e te -> rep_elems (S i) n q ->
      rep_elems i (S n) (SCons te q)
  with rep_seq : nat -> tseq -> Prop :=
  | rep_seq_intro : forall i sq q, nth_error (ps_seqs st) i = Some sq ->
      rep_elems (q_elems_offset sq) (q_num_elems sq) q ->
      (q_nullable sq = true <-> m_seq q []) -> rep_seq i q
  with rep_branches : nat -> nat -> tbranches -> Prop :=
  | rep_one : forall i q, rep_seq i q -> rep_branches i 1 (BOne q)
  | rep_more : forall i n q b, rep_seq i q -> rep_branches (S i) n b -> rep_branches i (S n) (BCons q b).

  (* a whole pattern; the end position is the number of its symbols *)
  Definition rep_pattern (i : nat) (q : tseq) : Prop :=
    rep_seq i q /\ numbered q /\
    exists sq, nth_error (ps_seqs st) i = Some sq /\ q_end_pos sq = length (seq_syms q).
End Represents.

(* ---- the NFA ---- *)

(* A path from a position: the symbols on it with their pattern-internal positions, and the
   position where it ends *)
Inductive nfa_path (n : nfa) : nat -> list (nat * psym) -> nat -> Prop :=
| path_nil : forall p, nfa_path n p [] p
| path_cons : forall p pos q w r, nth_error (n_positions n) p = Some pos -> In q (p_follow pos) ->
    nfa_path n q w r -> nfa_path n p ((p_ipos pos, p_sym pos) :: w) r.

(* The NFA accepts a sequence of symbols as a match of a pattern: there is a path from a
   start position to a final position of the pattern.  A position is final if nothing
   follows it. *)
Definition nfa_accepts (n : nfa) (pattern : nat) (w : list (nat * psym)) : Prop :=
  exists p r pos, In p (n_start n) /\ nfa_path n p w r /\
    nth_error (n_positions n) r = Some pos /\ p_follow pos = [] /\ p_pattern pos = pattern.
