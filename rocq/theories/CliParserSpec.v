(* Specification for the parser of pattern strings, option forms, and option arguments:
   the lexical structure, and a grammar whose derivations are over lists of tokens. *)
From Coq Require Import List Arith Bool.
From Verif Require Import CliPatternModel CliSpecModel CliRecorderModel CliRecorderSpec CliParserModel.
Import ListNotations.

(* characters that have a meaning at the start of a token *)
Definition specials : list nat :=
  [ ch_space; ch_dash; ch_less_than; ch_left_parenthesis; ch_right_parenthesis; ch_left_sq_bracket; ch_right_sq_bracket; ch_dot;
    ch_vertical_bar; ch_comma ].

Section Lexical.
  Variable alnum : nat -> bool.
  Variable narrow : nat -> nat.

  (* A locale is usable if narrowing takes the special characters, and no others, to
     themselves, and if a space is not alphanumeric. *)
  Definition locale_ok : Prop :=
    (forall c k, In k specials -> (narrow c = k <-> c = k)) /\ alnum ch_space = false.

  Definition word_char (c : nat) : bool := alnum c || (c =? ch_dash).
  (* s does not begin with a word character *)
  Definition word_ends (s : text) : Prop := match s with c :: _ => word_char c = false | [] => True end.

  (* x is a token of the given type when followed by s *)
  Inductive lexeme_of : token_type -> text -> text -> Prop :=
  | lx_keyword : forall c x s, ~ In c specials -> alnum (narrow c) = true -> forallb word_char x = true -> word_ends s ->
      lexeme_of t_keyword (c :: x) s
  | lx_dash_end : lexeme_of t_keyword [ch_dash] []
  | lx_dash : forall s, lexeme_of t_keyword [ch_dash] (ch_space :: s)
  | lx_long : forall x s, forallb word_char x = true -> word_ends s -> lexeme_of t_long_option (ch_dash :: ch_dash :: x) s
  | lx_short : forall c s, c <> ch_dash -> c <> ch_space -> lexeme_of t_short_option [ch_dash; c] s
  | lx_slot : forall x s, ~ In ch_greater_than x -> lexeme_of t_value_slot (ch_less_than :: x ++ [ch_greater_than]) s
  | lx_lpar : forall s, lexeme_of t_left_parenthesis [ch_left_parenthesis] s
  | lx_rpar : forall s, lexeme_of t_right_parenthesis [ch_right_parenthesis] s
  | lx_lsq : forall s, lexeme_of t_left_sq_bracket [ch_left_sq_bracket] s
  | lx_rsq : forall s, lexeme_of t_right_sq_bracket [ch_right_sq_bracket] s
  | lx_ellipsis : forall s, lexeme_of t_ellipsis [ch_dot; ch_dot; ch_dot] s
  | lx_bar : forall s, lexeme_of t_vertical_bar [ch_vertical_bar] s
  | lx_comma : forall s, lexeme_of t_comma [ch_comma] s.

  (* the string consists of the given tokens and of spaces *)
  Inductive lexes : text -> list token -> Prop :=
  | lexes_end : forall n, lexes (repeat ch_space n) []
  | lexes_token : forall n ty x s ts, lexeme_of ty x s -> lexes s ts ->
      lexes (repeat ch_space n ++ x ++ s) (Token ty x (0 <? n) :: ts).
End Lexical.

(* The grammar.  All constructs associate to the left. *)
Inductive g_elem : list token -> ptree -> Prop :=
| g_keyword : forall x b, g_elem [Token t_keyword x b] (PLeaf (LKeyword x))
| g_short : forall x b, g_elem [Token t_short_option x b] (PLeaf (LShort x))
| g_long : forall x b, g_elem [Token t_long_option x b] (PLeaf (LLong x))
| g_slot : forall x b, g_elem [Token t_value_slot x b] (PLeaf (LSlot x))
| g_brackets : forall l r w t, tk_type l = t_left_sq_bracket -> tk_type r = t_right_sq_bracket -> g_alt w t ->
    g_elem (l :: w ++ [r]) (POpt t)
| g_parens : forall l r w t, tk_type l = t_left_parenthesis -> tk_type r = t_right_parenthesis -> g_alt w t ->
    g_elem (l :: w ++ [r]) t
with g_rep : list token -> ptree -> Prop :=
| g_rep_one : forall w t, g_elem w t -> g_rep w t
| g_rep_more : forall w t e, tk_type e = t_ellipsis -> g_rep w t -> g_rep (w ++ [e]) (PRep t)
with g_jux : list token -> ptree -> Prop :=
| g_jux_one : forall w t, g_rep w t -> g_jux w t
| g_jux_more : forall w t c w' t', g_jux w t -> tk_spaced c = true -> g_rep (c :: w') t' -> g_jux (w ++ c :: w') (PJux t t')
with g_alt : list token -> ptree -> Prop :=
| g_alt_one : forall w t, g_jux w t -> g_alt w t
| g_alt_more : forall w t c w' t', g_alt w t -> tk_type c = t_vertical_bar -> g_jux w' t' -> g_alt (w ++ c :: w') (PAlt t t').

Inductive g_seq : list token -> list ptree -> Prop :=
| g_seq_one : forall w t, g_alt w t -> g_seq w [t]
| g_seq_more : forall w l c w' t, g_seq w l -> tk_type c = t_comma -> g_alt w' t -> g_seq (w ++ c :: w') (l ++ [t]).

Definition is_slot_leaf (l : leaf) : bool := match l with LSlot _ => true | _ => false end.
Definition has_slot (t : ptree) : bool := existsb is_slot_leaf (leaves t).

(* what a pattern string stands for: nothing, or a tree *)
Inductive pattern_means (alnum : nat -> bool) (narrow : nat -> nat) (is_deleg : bool) (x : text) : option ptree -> Prop :=
| means_empty : lexes alnum narrow x [] -> pattern_means alnum narrow is_deleg x None
| means_tree : forall ts t, lexes alnum narrow x ts -> g_jux ts t -> is_deleg && has_slot t = false ->
    pattern_means alnum narrow is_deleg x (Some t).

(* forms of an option: options separated by commas, each optionally in parentheses *)
Definition form_leaf (t : ptree) (f : oform) : Prop :=
  t = PLeaf (if of_long f then LLong (of_lexeme f) else LShort (of_lexeme f)).
Inductive forms_mean (alnum : nat -> bool) (narrow : nat -> nat) (x : text) : list oform -> Prop :=
| fmean_empty : lexes alnum narrow x [] -> forms_mean alnum narrow x []
| fmean_forms : forall ts l fs, lexes alnum narrow x ts -> g_seq ts l -> Forall2 form_leaf l fs -> forms_mean alnum narrow x fs.

(* argument of an option: none, a value slot, or a value slot in brackets *)
Inductive arg_means (alnum : nat -> bool) (narrow : nat -> nat) (x : text) : argspec -> Prop :=
| amean_none : lexes alnum narrow x [] -> arg_means alnum narrow x (Argspec false false)
| amean_required : forall ts y, lexes alnum narrow x ts -> g_alt ts (PLeaf (LSlot y)) -> arg_means alnum narrow x (Argspec true true)
| amean_optional : forall ts y, lexes alnum narrow x ts -> g_alt ts (POpt (PLeaf (LSlot y))) -> arg_means alnum narrow x (Argspec true false).

(* why a pattern string is not acceptable as such *)
Definition syntax_flaw (alnum : nat -> bool) (narrow : nat -> nat) (is_deleg : bool) (x : text) (m : spec_msg) : Prop :=
  (m = multiple_patterns /\ exists ts l, lexes alnum narrow x ts /\ g_seq ts l /\ 2 <= length l) \/
  (m = unparenthesized_alternatives /\ exists ts t, lexes alnum narrow x ts /\ g_alt ts t /\ forall t', ~ g_jux ts t') \/
  (m = slots_in_delegating /\ is_deleg = true /\ exists ts t, lexes alnum narrow x ts /\ g_jux ts t /\ has_slot t = true) \/
  (~ lexes alnum narrow x [] /\ forall ts l, lexes alnum narrow x ts -> ~ g_seq ts l).
