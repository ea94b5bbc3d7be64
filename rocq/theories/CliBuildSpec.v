(* Specification for the construction of the command-line processor: what the declarations
   of options and patterns mean, what can be wrong with them, and what is known when they
   have been registered. *)
From Coq Require Import List Arith Bool ZArith.
From Verif Require Import CliPatternModel CliPatternSpec CliSpecModel CliRecorderModel CliRecorderSpec CliParserModel CliParserSpec CliOptionSpec CliBuildModel.
Import ListNotations.

(* The meaning of the declaration of an option: its forms, and whether it allows for, and
   requires an argument *)
Definition meaning := (list oform * argspec)%type.

(* a name is one of those of the j'th option *)
Definition is_form (ms : list meaning) (l : leaf) (j : nat) : Prop :=
  exists fs a g, nth_error ms j = Some (fs, a) /\ In g fs /\ same_form l (opt_form g).

(* What is wrong with an option that comes after the given ones *)
Definition decl_flaw (ms : list meaning) (fs : list oform) (arg : argspec) (attr : Z) (act : action) (c : spec_code) (m : spec_msg) : Prop :=
  (c = bad_option_forms_syntax /\ m = no_forms /\ fs = []) \/
  (c = bad_option_attr /\ m = invalid_attributes /\ exists n, (3 <= n)%Z /\ Z.testbit attr n = true) \/
  (c = option_arg_not_allowed /\ m = arg_short_circuit /\ ar_allow arg = true /\ Z.testbit attr 0 = true) \/
  (c = option_arg_not_allowed /\ m = arg_further_values /\ ar_allow arg = true /\ Z.testbit attr 1 = true) \/
  (c = option_func_mismatch /\ m = action_rejects_arg /\ ar_allow arg = true /\ ac_allow act = false) \/
  (c = option_func_mismatch /\ m = action_requires_arg /\ ar_allow arg = true /\ ar_require arg = false /\ ac_require act = true) \/
  (c = option_form_reuse /\ exists f j, m = form_reuse (1 + j) /\ In f fs /\ is_form ms (opt_form f) j).

Section Meaning.
  Variable alnum : nat -> bool.
  Variable narrow : nat -> nat.

  (* options that are as they should be *)
  Inductive options_mean : list option_decl -> list meaning -> Prop :=
  | om_none : options_mean [] []
  | om_more : forall ds ms d fs a, options_mean ds ms -> forms_mean alnum narrow (od_forms d) fs -> arg_means alnum narrow (od_arg d) a ->
      (forall c m, ~ decl_flaw ms fs a (od_attr d) (od_action d) c m) -> options_mean (ds ++ [d]) (ms ++ [(fs, a)]).
  Definition option_wrong (ms : list meaning) (d : option_decl) (c : spec_code) (m : spec_msg) : Prop :=
    (c = bad_option_forms_syntax /\ forall fs, ~ forms_mean alnum narrow (od_forms d) fs) \/
    exists fs, forms_mean alnum narrow (od_forms d) fs /\
      ((c = bad_option_arg_syntax /\ forall a, ~ arg_means alnum narrow (od_arg d) a) \/
       exists a, arg_means alnum narrow (od_arg d) a /\ decl_flaw ms fs a (od_attr d) (od_action d) c m).

  (* a reference to an option that does not allow for it *)
  Definition ref_flaw (ds : list option_decl) (ms : list meaning) (l : leaf) (m : spec_msg) : Prop :=
    exists j d fs a, is_form ms l j /\ nth_error ds j = Some d /\ nth_error ms j = Some (fs, a) /\
      ((m = ref_takes_arg /\ ar_allow a = true) \/
       (m = ref_short_circuit /\ Z.testbit (od_attr d) 0 = true) \/
       (m = ref_further_values /\ Z.testbit (od_attr d) 1 = true)).

  (* symbols are value slots if, and only if they are written as such *)
  Definition slots_kept (f : leaf -> psym) : Prop :=
    forall l, is_slot (f l) = match l with LSlot _ => true | _ => false end.

  Definition tree_leaves (t : option ptree) : list leaf := match t with Some t => leaves t | None => [] end.

  (* a pattern that is as it should be *)
  Definition pattern_mean (ds : list option_decl) (ms : list meaning) (d : pattern_decl) (t : option ptree) : Prop :=
    pattern_means alnum narrow (pd_deleg d) (pd_pattern d) t /\ (forall f, ~ ambiguous (elements f t)) /\
    (forall l m, In l (tree_leaves t) -> ~ ref_flaw ds ms l m) /\ (forall n, (1 <= n)%Z -> Z.testbit (pd_attr d) n = false) /\
    (pd_deleg d = true \/ exists st k f, slots_kept f /\ full_seq st k (elements f t) /\ pd_fits d st k = true).
  Definition pattern_wrong (ds : list option_decl) (ms : list meaning) (d : pattern_decl) (c : spec_code) (m : spec_msg) : Prop :=
    (c = bad_pattern_syntax /\ syntax_flaw alnum narrow (pd_deleg d) (pd_pattern d) m) \/
    exists t, pattern_means alnum narrow (pd_deleg d) (pd_pattern d) t /\
      ((c = bad_pattern_syntax /\ forall f, flaw_seq m (elements f t)) \/
       (c = bad_option_ref /\ exists l, In l (tree_leaves t) /\ ref_flaw ds ms l m) \/
       (c = bad_pattern_attr /\ m = invalid_attributes /\ exists n, (1 <= n)%Z /\ Z.testbit (pd_attr d) n = true) \/
       (c = pattern_func_mismatch /\ m = func_mismatch /\ pd_deleg d = false /\
        exists st k f, slots_kept f /\ full_seq st k (elements f t) /\ pd_fits d st k = false)).
End Meaning.

(* names of options *)
Definition option_name (l : leaf) : Prop := match l with LShort _ | LLong _ => leaf_ok l | _ => False end.

(* What is known when the options and the patterns have been registered: the options as they
   are declared; the keywords in the patterns; the names of the options, and those in the
   patterns.  Two names are for the same symbol if they are the same, or are names of the
   same option.  A symbol is known to be that of an option, if it is, and it is known to be
   used in a pattern, if it is. *)
Definition registered (ds : list option_decl) (ms : list meaning) (ts : list (option ptree)) (s : spec) : Prop :=
  k_patterns s = length ts /\
  Forall2 (fun o (x : option_decl * meaning) => o_arg o = snd (snd x) /\ o_attr o = od_attr (fst x) /\ o_action o = od_action (fst x) /\
    firstn (snd (o_forms o)) (skipn (fst (o_forms o)) (k_forms s)) = fst (snd x)) (k_options s) (combine ds ms) /\
  length ds = length ms /\
  (forall w, find_keyword s w <> None <-> In (LKeyword w) (flat_map tree_leaves ts)) /\
  (forall l, option_name l -> (sym_in s l <> None <-> (exists j, is_form ms l j) \/ exists l', In l' (flat_map tree_leaves ts) /\ same_form l l')) /\
  (forall l l' i, option_name l -> option_name l' -> sym_in s l = Some (Psym s_proto_option i) ->
    (sym_in s l' = Some (Psym s_proto_option i) <-> same_form l l' \/ exists j, is_form ms l j /\ is_form ms l' j)) /\
  (forall l i j, option_name l -> sym_in s l = Some (Psym s_proto_option i) -> (pr_option (proto_at s i) = Some j <-> is_form ms l j)) /\
  (forall i, pr_pattern (proto_at s i) <> None <-> exists l, In l (flat_map tree_leaves ts) /\ sym_in s l = Some (Psym s_proto_option i)).

(* If there are no patterns, there is the empty one. *)
Definition or_empty (l : list pattern_decl) : list pattern_decl :=
  match l with [] => [Pattern_decl [] 0 false (fun _ _ => true)] | _ => l end.
