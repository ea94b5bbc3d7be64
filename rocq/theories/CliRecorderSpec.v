(* Independent specification of the recorder of pattern structures: the syntax tree of a
   pattern, the elements of the pattern, the values that a pattern gives rise to, and
   structural ambiguity. *)
From Coq Require Import List Arith Bool ZArith.
From Verif Require Import CliPatternModel CliPatternSpec CliSpecModel CliRecorderModel.
Import ListNotations.

(* ---- syntax trees ---- *)

Inductive leaf := LKeyword (lexeme : text) | LShort (lexeme : text) | LLong (lexeme : text) | LSlot (lexeme : text).

Inductive ptree :=
| PLeaf (l : leaf)
| POpt (a : ptree)        (* [a] *)
| PRep (a : ptree)        (* a... *)
| PJux (a b : ptree)      (* a b *)
| PAlt (a b : ptree).     (* a | b *)

Definition leaf_type (l : leaf) : node_type :=
  match l with LKeyword _ => n_keyword | LShort _ => n_short_option | LLong _ => n_long_option | LSlot _ => n_value_slot end.
Definition leaf_lexeme (l : leaf) : text :=
  match l with LKeyword t | LShort t | LLong t | LSlot t => t end.

(* A syntax tree as nodes in a vector *)
Inductive rep_node (nodes : list node) : nat -> ptree -> Prop :=
| rn_leaf : forall i l r1 r2, nth_error nodes i = Some (Node (leaf_type l) r1 r2 (leaf_lexeme l)) -> rep_node nodes i (PLeaf l)
| rn_opt : forall i j r x a, nth_error nodes i = Some (Node n_optionality j r x) -> rep_node nodes j a -> rep_node nodes i (POpt a)
| rn_rep : forall i j r x a, nth_error nodes i = Some (Node n_repetition j r x) -> rep_node nodes j a -> rep_node nodes i (PRep a)
| rn_jux : forall i j k x a b, nth_error nodes i = Some (Node n_juxtaposition j k x) ->
    rep_node nodes j a -> rep_node nodes k b -> rep_node nodes i (PJux a b)
| rn_alt : forall i j k x a b, nth_error nodes i = Some (Node n_alternatives j k x) ->
    rep_node nodes j a -> rep_node nodes k b -> rep_node nodes i (PAlt a b).

Fixpoint leaves (t : ptree) : list leaf :=
  match t with
  | PLeaf l => [l]
  | POpt a | PRep a => leaves a
  | PJux a b | PAlt a b => leaves a ++ leaves b
  end.

(* The name of an option is what follows the dashes of its lexeme. *)
Definition leaf_ok (l : leaf) : Prop :=
  match l with LShort t | LLong t => 2 <= length t | _ => True end.

(* ---- the elements of a pattern ---- *)

Fixpoint seq_app (a b : tseq) : tseq := match a with SNil => b | SCons e a => SCons e (seq_app a b) end.
Fixpoint br_app (a b : tbranches) : tbranches := match a with BOne q => BCons q b | BCons q a => BCons q (br_app a b) end.

(* A syntax tree as a sequence of elements, and as branches of an alternatives construct:
   the elements of a juxtaposition are those of its parts, and so are the branches of
   alternatives.  Symbols are numbered from left to right. *)
Fixpoint shape (f : leaf -> psym) (pos : nat) (t : ptree) : tseq * tbranches :=
  let single e := (SCons e SNil, BOne (SCons e SNil)) in
  match t with
  | PLeaf l => single (ESym pos (f l))
  | POpt a => single (EOpt (fst (shape f pos a)))
  | PRep a => single (ERep (fst (shape f pos a)))
  | PJux a b =>
    let q := seq_app (fst (shape f pos a)) (fst (shape f (pos + length (leaves a)) b)) in (q, BOne q)
  | PAlt a b =>
    let bs := br_app (snd (shape f pos a)) (snd (shape f (pos + length (leaves a)) b)) in (SCons (EAlt bs) SNil, bs)
  end.

Definition elements (f : leaf -> psym) (t : option ptree) : tseq :=
  match t with Some t => fst (shape f 0 t) | None => SNil end.

(* The symbol that a lexeme stands for *)
Definition sym_in (s : spec) (l : leaf) : option psym :=
  match l with
  | LKeyword t => option_map (Psym s_keyword) (find_keyword s t)
  | LShort t => match nth_error t 1 with Some c => option_map (Psym s_proto_option) (find_short s c) | None => None end
  | LLong t => option_map (Psym s_proto_option) (find_long s (skipn 2 t))
  | LSlot _ => Some (Psym s_value_slot 0)
  end.
Definition sym_of (s : spec) (l : leaf) : psym := match sym_in s l with Some y => y | None => dummy_symbol end.

(* ---- values ---- *)

(* What is passed on when a pattern is matched: for symbols, the index of the argument; for
   constructs, whether there was a match, the list of repetitions, or which branch there
   was a match with *)
Inductive pval :=
| VSym (ipos arg : nat)
| VAbsent
| VPresent (v : list pval)
| VRep (v : list (list pval))
| VAlt (k : nat) (v : list pval).

(* the k'th branch *)
Fixpoint branch (b : tbranches) (k : nat) : option tseq :=
  match b, k with
  | BOne q, 0 | BCons q _, 0 => Some q
  | BOne _, S _ => None
  | BCons _ b, S k => branch b k
  end.

(* A value for a sequence of matches, each of which has the position of the symbol and the
   index of the argument *)
Inductive val_elem : telem -> list (nat * nat) -> pval -> Prop :=
| val_sym : forall i s a, val_elem (ESym i s) [(i, a)] (VSym i a)
| val_absent : forall q, val_elem (EOpt q) [] VAbsent
| val_present : forall q w v, val_seq q w v -> val_elem (EOpt q) w (VPresent v)
| val_rep : forall q w v, val_reps q w v -> val_elem (ERep q) w (VRep v)
| val_alt : forall b k q w v, branch b k = Some q -> val_seq q w v -> val_elem (EAlt b) w (VAlt k v)
with val_seq : tseq -> list (nat * nat) -> list pval -> Prop :=
| val_nil : val_seq SNil [] []
| val_cons : forall e q w1 w2 v vs, val_elem e w1 v -> val_seq q w2 vs -> val_seq (SCons e q) (w1 ++ w2) (v :: vs)
with val_reps : tseq -> list (nat * nat) -> list (list pval) -> Prop :=
| val_last : forall q w v, val_seq q w v -> val_reps q w [v]
| val_more : forall q w1 w2 v vs, val_seq q w1 v -> val_reps q w2 vs -> val_reps q (w1 ++ w2) (v :: vs).

(* The same matches with different values *)
Definition ambiguous (q : tseq) : Prop := exists w v v', val_seq q w v /\ val_seq q w v' /\ v <> v'.

(* ---- the rules: cli/spec.hpp:75-84 ---- *)

Definition nullable (q : tseq) : Prop := m_seq q [].
Definition repeating (q : tseq) : Prop := exists w, w <> [] /\ forall k, m_seq q (concat (repeat w (S k))).

(* A construct, at any depth, that breaks a rule *)
Inductive flaw_elem (m : spec_msg) : telem -> Prop :=
| flaw_opt : forall q, m = opt_nullable -> nullable q -> flaw_elem m (EOpt q)
| flaw_rep_1 : forall q, m = rep_nullable -> nullable q -> flaw_elem m (ERep q)
| flaw_rep_2 : forall q, m = rep_repeating -> repeating q -> flaw_elem m (ERep q)
| flaw_alt : forall b i j qi qj, m = alt_nullable -> i < j -> branch b i = Some qi -> branch b j = Some qj ->
    nullable qi -> nullable qj -> flaw_elem m (EAlt b)
| flaw_in_opt : forall q, flaw_seq m q -> flaw_elem m (EOpt q)
| flaw_in_rep : forall q, flaw_seq m q -> flaw_elem m (ERep q)
| flaw_in_alt : forall b i q, branch b i = Some q -> flaw_seq m q -> flaw_elem m (EAlt b)
with flaw_seq (m : spec_msg) : tseq -> Prop :=
| flaw_here : forall e q, flaw_elem m e -> flaw_seq m (SCons e q)
| flaw_later : forall e q, flaw_seq m q -> flaw_seq m (SCons e q).

(* ---- the structure, with all that pattern_structure.hpp says about the members ---- *)

Definition is_slot (s : psym) : bool := match s_type s with s_value_slot => true | _ => false end.

(* elements that correspond to parameters: pattern_structure.hpp:69-71, 108 *)
Definition takes_param (e : telem) : bool := match e with ESym _ s => is_slot s | _ => true end.
Fixpoint num_params (q : tseq) : nat :=
  match q with SNil => 0 | SCons e q => (if takes_param e then 1 else 0) + num_params q end.

(* one beyond the position of the last symbol: pattern_structure.hpp:84-88, 125-126 *)
Definition one_beyond (l : list (nat * psym)) (p : nat) : Prop :=
  match rev l with [] => p = 0 | (i, _) :: _ => p = S i end.

Section Full.
  Variable st : structure.

  Inductive full_elem : elem -> telem -> Prop :=
  | full_sym : forall e i s, e_type e = t_sym -> nth_error (ps_syms st) (e_index e) = Some s ->
      e_collapsible e = false -> e_is_param e = is_slot s -> e_end_pos e = S i -> full_elem e (ESym i s)
  | full_opt : forall e q, e_type e = t_opt -> full_seq (e_index e) q ->
      (e_collapsible e = true <-> num_params q = 0) -> e_is_param e = true ->
      one_beyond (seq_syms q) (e_end_pos e) -> full_elem e (EOpt q)
  | full_rep : forall e q, e_type e = t_rep -> full_seq (e_index e) q ->
      (e_collapsible e = true <-> num_params q = 0) -> e_is_param e = true ->
      one_beyond (seq_syms q) (e_end_pos e) -> full_elem e (ERep q)
  | full_alt : forall e a b, e_type e = t_alt -> nth_error (ps_alts st) (e_index e) = Some a ->
      full_branches (a_seqs_offset a) (a_num_seqs a) b ->
      (e_collapsible e = true <-> forall k q, branch b k = Some q -> num_params q = 0) -> e_is_param e = true ->
      one_beyond (branches_syms b) (e_end_pos e) ->
      (forall k q, k < a_nullable_seq_index a -> branch b k = Some q -> ~ nullable q) ->
      (a_nullable_seq_index a = a_num_seqs a \/
       exists q, branch b (a_nullable_seq_index a) = Some q /\ nullable q) ->
      full_elem e (EAlt b)
  with full_elems : nat -> nat -> tseq -> Prop :=
  | full_nil : forall i, full_elems i 0 SNil
  | full_cons : forall i n e te q, nth_error (ps_elems st) i = Some e -> full_elem e te -> full_elems (S i) n q ->
      full_elems i (S n) (SCons te q)
  with full_seq : nat -> tseq -> Prop :=
  | full_seq_intro : forall i sq q, nth_error (ps_seqs st) i = Some sq ->
      full_elems (q_elems_offset sq) (q_num_elems sq) q -> q_num_params sq = num_params q ->
      one_beyond (seq_syms q) (q_end_pos sq) -> (q_nullable sq = true <-> nullable q) -> full_seq i q
  with full_branches : nat -> nat -> tbranches -> Prop :=
  | full_one : forall i q, full_seq i q -> full_branches i 1 (BOne q)
  | full_more : forall i n q b, full_seq i q -> full_branches (S i) n b -> full_branches i (S n) (BCons q b).
End Full.

(* Nothing that was there is changed. *)
Definition extends (a b : structure) : Prop :=
  (exists l, ps_syms b = ps_syms a ++ l) /\ (exists l, ps_elems b = ps_elems a ++ l) /\
  (exists l, ps_seqs b = ps_seqs a ++ l) /\ (exists l, ps_alts b = ps_alts a ++ l).

(* ---- specification objects ---- *)

(* What the maps refer to exists, and keywords are those of the vector. *)
Definition spec_ok (s : spec) : Prop :=
  (forall t i, find_keyword s t = Some i <-> nth_error (k_keywords s) i = Some t) /\
  (forall c i, find_short s c = Some i -> i < length (k_protos s)) /\
  (forall t i, find_long s t = Some i -> i < length (k_protos s)) /\
  (forall i p o, nth_error (k_protos s) i = Some p -> pr_option p = Some o -> o < length (k_options s)).

(* Options by the same name *)
Definition same_form (l l' : leaf) : Prop :=
  match l, l' with
  | LShort t, LShort t' => nth_error t 1 = nth_error t' 1
  | LLong t, LLong t' => skipn 2 t = skipn 2 t'
  | _, _ => False
  end.

(* What is said about a proto option that does not exist yet *)
Definition proto_at (s : spec) (i : nat) : proto :=
  match nth_error (k_protos s) i with Some p => p | None => Proto None None end.

(* The references in a pattern have been entered in a specification: all that was known is
   still known, by the same symbol; all of the references are known; nothing else is known
   in addition; new options have new symbols, different symbols for different names; options
   are not changed; and a proto option that was not referenced by a previous pattern is
   taken to be introduced by this one if, and only if it is referenced by this one. *)
Definition recorded (pattern_index : nat) (ls : list leaf) (s s' : spec) : Prop :=
  (forall l y, sym_in s l = Some y -> sym_in s' l = Some y) /\
  (forall l, In l ls -> sym_in s' l <> None) /\
  (forall l y, sym_in s' l = Some y -> sym_in s l = Some y \/ exists l', In l' ls /\ sym_in s' l' = Some y) /\
  (forall l i, sym_in s l = None -> sym_in s' l = Some (Psym s_proto_option i) -> length (k_protos s) <= i) /\
  (forall l l' i, sym_in s l = None -> sym_in s l' = None -> sym_in s' l = Some (Psym s_proto_option i) ->
    sym_in s' l' = Some (Psym s_proto_option i) -> same_form l l') /\
  length (k_protos s) <= length (k_protos s') /\
  k_options s' = k_options s /\ k_forms s' = k_forms s /\ k_patterns s' = k_patterns s /\
  (forall i, pr_option (proto_at s' i) = pr_option (proto_at s i) /\
    (pr_pattern (proto_at s i) <> None -> pr_pattern (proto_at s' i) = pr_pattern (proto_at s i)) /\
    (pr_pattern (proto_at s i) = None ->
      (pr_pattern (proto_at s' i) = Some pattern_index /\ exists l, In l ls /\ sym_in s' l = Some (Psym s_proto_option i)) \/
      (pr_pattern (proto_at s' i) = None /\ forall l, In l ls -> sym_in s' l <> Some (Psym s_proto_option i)))).

(* A reference from a pattern to an option that does not allow for it *)
Definition bad_option (o : optspec) (m : spec_msg) : Prop :=
  (m = ref_takes_arg /\ ar_allow (o_arg o) = true) \/
  (m = ref_short_circuit /\ Z.land (o_attr o) 1 <> 0%Z) \/
  (m = ref_further_values /\ Z.land (o_attr o) 2 <> 0%Z).
Definition bad_ref (s : spec) (l : leaf) (m : spec_msg) : Prop :=
  exists i p j o, sym_in s l = Some (Psym s_proto_option i) /\ nth_error (k_protos s) i = Some p /\
    pr_option p = Some j /\ nth_error (k_options s) j = Some o /\ bad_option o m.
