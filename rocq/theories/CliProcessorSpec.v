(* Independent specification of the interpretation of command-line arguments: how arguments
   are read as options and other arguments, and what comes of it. *)
From Coq Require Import List Arith Bool ZArith.
From Verif Require Import CliPatternModel CliMatcherModel CliMatcherSpec CliPatternSpec CliSpecModel CliProcessorModel.
Import ListNotations.

(* What is known about an option by a certain name: the symbol it is in patterns, whether any
   pattern refers to it, and the index and the declaration of the option, if there is one. *)
Record known := Known { kn_symbol : nat; kn_pattern : bool; kn_decl : option (nat * optspec) }.

(* A thing on the command line.  The text in front is the argument it is in. *)
Inductive item :=
| IPlain (a : text) (i : nat) (is_value : bool)          (* not an option; known to be a value *)
| IFlag (a : text) (i : nat) (k : known) (o : occurrence)               (* an option without argument *)
| IOption (i : nat) (d : nat) (o : occurrence) (value : text)           (* an option with argument *)
| IUnknown (a : text) (i : nat) (form : text) (compound : bool)         (* an unknown option *)
| IMissing (a : text) (i : nat) (form : text) (compound : bool)         (* the argument of an option is missing *)
| IRefused (a : text) (i : nat) (value form : text).                    (* the option takes no argument *)

Section Reading.
  Variable dash equal : nat.
  Variable s : spec.

  Definition knows (p : option nat) (k : known) : Prop :=
    p = Some (kn_symbol k) /\ exists pr, nth_error (k_protos s) (kn_symbol k) = Some pr /\
      (kn_pattern k = true <-> pr_pattern pr <> None) /\
      match kn_decl k with
      | None => pr_option pr = None
      | Some (d, o) => pr_option pr = Some d /\ nth_error (k_options s) d = Some o
      end.
  Definition takes_arg (k : known) (d : nat) : Prop := exists o, kn_decl k = Some (d, o) /\ ar_allow (o_arg o) = true.
  Definition needs_arg (k : known) (d : nat) : Prop := exists o, kn_decl k = Some (d, o) /\ ar_require (o_arg o) = true.

  (* From here on, all arguments are values *)
  Definition ends_options (x : item) : Prop :=
    match x with
    | IFlag _ _ k _ => exists d o, kn_decl k = Some (d, o) /\ Z.testbit (o_attr o) 1 = true /\ Z.testbit (o_attr o) 0 = false
    | _ => False
    end.

  (* The characters of an argument that begins with a single dash: the part of the argument
     that was read, the rest, and the next argument, if any.  The flag tells whether the next
     argument is the argument of an option. *)
  Inductive reads_short (a : text) (i : nat) (next : option text) : text -> text -> list item -> bool -> Prop :=
  | rs_end : forall pre, reads_short a i next pre [] [] false
  | rs_flag : forall pre c r k l b, knows (find_short s c) k -> (forall d, ~ takes_arg k d) -> (forall r', r <> dash :: r') ->
      reads_short a i next (pre ++ [c]) r l b ->
      reads_short a i next pre (c :: r) (IFlag a i k (Occurrence i false 1 (length pre) (length pre + 1) 0) :: l) b
  | rs_flag_alone : forall pre c k d, knows (find_short s c) k -> takes_arg k d -> ~ needs_arg k d ->
      reads_short a i next pre [c] [IFlag a i k (Occurrence i false 1 (length pre) (length pre + 1) 0)] false
  | rs_attached : forall pre c x r k d, knows (find_short s c) k -> takes_arg k d ->
      reads_short a i next pre (c :: x :: r)
        [IOption i d (Occurrence i true 1 (length pre) (length pre + 1) (length pre + 1)) (x :: r)] false
  | rs_next : forall pre c k d v, knows (find_short s c) k -> needs_arg k d -> next = Some v ->
      reads_short a i next pre [c] [IOption i d (Occurrence i true 1 (length pre) (length pre + 1) 0) v] true
  | rs_missing : forall pre c k d, knows (find_short s c) k -> needs_arg k d -> next = None ->
      reads_short a i next pre [c] [IMissing a i [dash; c] (1 <? length pre)] false
  | rs_refused : forall pre c r k, knows (find_short s c) k -> (forall d, ~ takes_arg k d) ->
      reads_short a i next pre (c :: dash :: r) [IRefused a i (dash :: r) [dash; c]] false
  | rs_unknown : forall pre c r, find_short s c = None ->
      reads_short a i next pre (c :: r) [IUnknown a i [dash; c] (1 <? length pre)] false.

  (* What comes after two dashes: the name, and what is after the equal sign, if any *)
  Inductive reads_long (a : text) (i : nat) (next : option text) : text -> option text -> list item -> bool -> Prop :=
  | rl_flag : forall name k, knows (find_long s name) k -> (forall d, ~ needs_arg k d) ->
      reads_long a i next name None [IFlag a i k (Occurrence i false 2 2 (2 + length name) 0)] false
  | rl_attached : forall name v k d, knows (find_long s name) k -> takes_arg k d ->
      reads_long a i next name (Some v)
        [IOption i d (Occurrence i true 2 2 (2 + length name) (3 + length name)) v] false
  | rl_next : forall name k d v, knows (find_long s name) k -> needs_arg k d -> next = Some v ->
      reads_long a i next name None [IOption i d (Occurrence i true 2 2 (2 + length name) 0) v] true
  | rl_missing : forall name k d, knows (find_long s name) k -> needs_arg k d -> next = None ->
      reads_long a i next name None [IMissing a i (dash :: dash :: name) false] false
  | rl_refused : forall name v k, knows (find_long s name) k -> (forall d, ~ takes_arg k d) ->
      reads_long a i next name (Some v) [IRefused a i v (dash :: dash :: name)] false
  | rl_unknown : forall name v, find_long s name = None ->
      reads_long a i next name v [IUnknown a i (dash :: dash :: name) false] false.

  (* the text of a long option after the two dashes *)
  Definition long_text (name : text) (v : option text) : text :=
    name ++ match v with Some v => equal :: v | None => [] end.

  (* One argument *)
  Inductive reads_arg (is_value : bool) (i : nat) (next : option text) : text -> list item -> bool -> Prop :=
  | ra_plain : forall a, (is_value = true \/ length a < 2 \/ forall r, a <> dash :: r) ->
      reads_arg is_value i next a [IPlain a i is_value] false
  | ra_short : forall c r l b, is_value = false -> c <> dash ->
      reads_short (dash :: c :: r) i next [dash] (c :: r) l b ->
      reads_arg is_value i next (dash :: c :: r) l b
  | ra_long : forall name v l b, is_value = false -> ~ In equal name ->
      reads_long (dash :: dash :: long_text name v) i next name v l b ->
      reads_arg is_value i next (dash :: dash :: long_text name v) l b.

  (* The arguments from the i'th one.  A group consists of what is in an argument, together
     with the index of that argument. *)
  Inductive reads : bool -> nat -> list text -> list (nat * list item) -> Prop :=
  | r_none : forall is_value i, reads is_value i [] []
  | r_arg : forall is_value is_value' i a rest l g, reads_arg is_value i (hd_error rest) a l false ->
      (is_value' = true <-> is_value = true \/ exists x, In x l /\ ends_options x) ->
      reads is_value' (S i) rest g -> reads is_value i (a :: rest) ((i, l) :: g)
  | r_two : forall is_value is_value' i a v rest l g, reads_arg is_value i (Some v) a l true ->
      (is_value' = true <-> is_value = true \/ exists x, In x l /\ ends_options x) ->
      reads is_value' (S (S i)) rest g -> reads is_value i (a :: v :: rest) ((i, l) :: g).
End Reading.

(* What has come of the arguments up to some point: the symbols, with the arguments they come
   from; whether matching has been given up; whether there was an error; the options; and
   the errors *)
Record progress := Progress {
  g_symbols : list (psym * nat); g_lost : bool; g_failed : bool; g_options : list invocation; g_errors : list perror
}.
Definition g_word (g : progress) : list psym := map fst (g_symbols g).
Definition symbol (g : progress) (y : psym) (i : nat) : progress :=
  Progress (g_symbols g ++ [(y, i)]) (g_lost g) (g_failed g) (g_options g) (g_errors g).
Definition failure (g : progress) (e : perror) : progress :=
  Progress (g_symbols g) (g_lost g) true (g_options g) (g_errors g ++ [e]).
Definition perform (g : progress) (d : nat) (o : occurrence) : progress :=
  Progress (g_symbols g) (g_lost g) (g_failed g) (g_options g ++ [(d, o)]) (g_errors g).
Definition lost (g : progress) : progress := Progress (g_symbols g) true (g_failed g) (g_options g) (g_errors g).

(* Whether to go on: VStop is stopping in error, VShort is stopping at a short-circuit option *)
Inductive verdict := VGoOn | VStop | VShort (d : nat).

Section Interpretation.
  Variable s : spec.
  Variable ts : list tseq.
  Variable delegs : list bool.

  (* A delegating pattern may still come to match *)
  Definition may_delegate (w : list psym) : Prop :=
    exists p u, nth_error delegs p = Some true /\ matches ts p (w ++ u).

  (* Something does not fit the patterns: nothing further is matched, and processing stops if
     it is possible that delegation was intended. *)
  Inductive gives_up (g : progress) : progress -> verdict -> Prop :=
  | gu_stop : may_delegate (g_word g) -> gives_up g g VStop
  | gu_on : ~ may_delegate (g_word g) -> gives_up g (lost g) VGoOn.

  (* A symbol is put to the patterns *)
  Inductive put (a : text) (y : psym) (i : nat) (g : progress) : progress -> verdict -> Prop :=
  | put_lost : g_lost g = true -> put a y i g g VGoOn
  | put_fits : g_lost g = false -> viable ts (g_word g ++ [y]) -> put a y i g (symbol g y i) VGoOn
  | put_mismatch : forall g' v, g_lost g = false -> ~ viable ts (g_word g ++ [y]) ->
      (exists p z u, matches ts p (g_word g ++ z :: u)) ->
      gives_up (failure g (Perror i no_pattern_match (mismatching a))) g' v -> put a y i g g' v
  | put_extraneous : forall g' v, g_lost g = false -> ~ viable ts (g_word g ++ [y]) ->
      ~ (exists p z u, matches ts p (g_word g ++ z :: u)) ->
      gives_up (failure g (Perror i no_pattern_match (extraneous a))) g' v -> put a y i g g' v.

  (* The symbol for an argument that is not an option: the keyword, if there is one, and if
     it fits; otherwise a value *)
  Definition plain_symbol (a : text) (is_value : bool) (w : list psym) (y : psym) : Prop :=
    (is_value = false /\ exists k, find_keyword s a = Some k /\ y = Psym s_keyword k /\ viable ts (w ++ [y])) \/
    (y = Psym s_value_slot 0 /\
     (is_value = true \/ forall k, find_keyword s a = Some k -> ~ viable ts (w ++ [Psym s_keyword k]))).

  (* An option that some pattern refers to is put to the patterns. *)
  Inductive refers (a : text) (k : known) (i : nat) (g : progress) : progress -> verdict -> Prop :=
  | rf_no : kn_pattern k = false -> refers a k i g g VGoOn
  | rf_yes : forall g' v, kn_pattern k = true -> put a (Psym s_proto_option (kn_symbol k)) i g g' v -> refers a k i g g' v.

  (* One thing on the command line *)
  Inductive follows (g : progress) : item -> progress -> verdict -> Prop :=
  | f_plain : forall a i is_value y g' v, plain_symbol a is_value (g_word g) y -> put a y i g g' v ->
      follows g (IPlain a i is_value) g' v
  | f_flag_only : forall a i k o g' v, kn_decl k = None -> refers a k i g g' v -> follows g (IFlag a i k o) g' v
  | f_flag_short : forall a i k o d x, kn_decl k = Some (d, x) -> Z.testbit (o_attr x) 0 = true ->
      follows g (IFlag a i k o) g (VShort d)
  | f_flag : forall a i k o d x g' v, kn_decl k = Some (d, x) -> Z.testbit (o_attr x) 0 = false ->
      refers a k i (perform g d o) g' v -> follows g (IFlag a i k o) g' v
  | f_option : forall i d o v, follows g (IOption i d o v) (perform g d o) VGoOn
  | f_unknown : forall a i f c g' v,
      gives_up (failure g (Perror i bad_option (if c : bool then unknown_in_compound f (a, None) else unknown_option f))) g' v ->
      follows g (IUnknown a i f c) g' v
  | f_missing : forall a i f c,
      follows g (IMissing a i f c)
        (failure g (Perror i bad_option (if c : bool then missing_arg_in f (a, None) else missing_arg f))) VGoOn
  | f_refused : forall a i x f,
      follows g (IRefused a i x f) (failure g (Perror i bad_option (no_arg_allowed x f (a, None)))) VGoOn.

  Inductive follows_all (g : progress) : list item -> progress -> verdict -> Prop :=
  | fa_end : follows_all g [] g VGoOn
  | fa_stop : forall x l g' v, follows g x g' v -> v <> VGoOn -> follows_all g (x :: l) g' v
  | fa_more : forall x l g1 g' v, follows g x g1 VGoOn -> follows_all g1 l g' v -> follows_all g (x :: l) g' v.

  (* What comes of the groups, where n is the number of arguments.  Delegation takes place in
     front of an argument, or at the end, as soon as a delegating pattern is matched. *)
  Definition delegates (g : progress) (p : nat) : Prop :=
    g_lost g = false /\ first_match ts p (g_word g) /\ nth_error delegs p = Some true.

  Inductive comes_to (n : nat) (g : progress) : list (nat * list item) -> progress -> poutcome -> Prop :=
  | ct_deleg : forall p gs, delegates g p ->
      comes_to n g gs g (RDeleg p (match gs with (i, _) :: _ => i | [] => n end))
  | ct_match : forall p, g_lost g = false -> g_failed g = false -> first_match ts p (g_word g) -> nth_error delegs p <> Some true ->
      comes_to n g [] g (RInvoke p)
  | ct_failed : forall p, g_lost g = false -> g_failed g = true -> first_match ts p (g_word g) -> nth_error delegs p <> Some true ->
      comes_to n g [] g RFailed
  | ct_lost : g_lost g = true -> comes_to n g [] g RFailed
  | ct_too_few : g_lost g = false -> (forall p, ~ matches ts p (g_word g)) ->
      comes_to n g [] (failure g (Perror n no_pattern_match too_few)) RFailed
  | ct_go_on : forall i l gs g1 g' r, (forall p, ~ delegates g p) -> follows_all g l g1 VGoOn -> comes_to n g1 gs g' r ->
      comes_to n g ((i, l) :: gs) g' r
  | ct_stop : forall i l gs g', (forall p, ~ delegates g p) -> follows_all g l g' VStop -> comes_to n g ((i, l) :: gs) g' RFailed
  | ct_short : forall i l gs g' d, (forall p, ~ delegates g p) -> follows_all g l g' (VShort d) ->
      comes_to n g ((i, l) :: gs) g' (RShorted d).
End Interpretation.

Definition at_start (failed : bool) : progress := Progress [] false failed [] [].

(* Specifications that can be processed.  This is what the construction of a specification
   ensures, except for the last one: the action of an option without argument can do without
   an argument. *)
Definition args_known (s : spec) : Prop :=
  (forall d o, nth_error (k_options s) d = Some o -> ar_require (o_arg o) = true -> ar_allow (o_arg o) = true) /\
  (forall i p d o, nth_error (k_protos s) i = Some p -> pr_pattern p <> None -> pr_option p = Some d ->
    nth_error (k_options s) d = Some o -> ar_allow (o_arg o) = false).
Definition actions_fit (s : spec) : Prop :=
  forall d o, nth_error (k_options s) d = Some o -> ar_require (o_arg o) = false -> ac_require (o_action o) = false.

(* The options on the command line that are declared, in order; what is asked of them; and
   the complaints about arguments that are not accepted.  The form of an option is the dashes
   that the argument begins with, and the name. *)
Definition declared (x : item) : list invocation :=
  match x with
  | IFlag _ _ k o => match kn_decl k with Some (d, _) => [(d, o)] | None => [] end
  | IOption _ d o _ => [(d, o)]
  | _ => []
  end.
Definition asked (x : item) : list (nat * option text) :=
  match x with
  | IFlag _ _ k _ => match kn_decl k with Some (d, _) => [(d, None)] | None => [] end
  | IOption _ d _ v => [(d, Some v)]
  | _ => []
  end.
Definition form_in (a : text) (o : occurrence) : text :=
  firstn (oc_lead_end o) a ++ firstn (oc_name_end o - oc_name_begin o) (skipn (oc_name_begin o) a).
Definition complaint (args : list text) (accepts : nat -> text -> bool) (x : item) : list perror :=
  match x with
  | IOption i d o v =>
    let a := nth i args [] in
    if accepts d v then []
    else [Perror i bad_option_arg (bad_arg v (form_in a o) (a, if oc_value_begin o =? 0 then Some v else None))]
  | _ => []
  end.
Definition items (gs : list (nat * list item)) : list item := flat_map snd gs.

(* What is on the command line as it should be, and the indexes of the arguments that are put
   to the patterns *)
Definition proper (x : item) : Prop :=
  match x with IPlain _ _ _ | IFlag _ _ _ _ | IOption _ _ _ _ => True | _ => False end.
Definition matched (x : item) : list nat :=
  match x with
  | IPlain _ i _ => [i]
  | IFlag _ i k _ => if kn_pattern k then [i] else []
  | _ => []
  end.

(* Errors in order of the arguments they are about, each of which is in the given range *)
Definition in_order (lo n : nat) (l : list perror) : Prop :=
  (forall k j e e', k <= j -> nth_error l k = Some e -> nth_error l j = Some e' -> er_arg e <= er_arg e') /\
  Forall (fun e => lo <= er_arg e <= n) l.
