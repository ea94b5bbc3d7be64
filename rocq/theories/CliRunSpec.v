(* Independent specification of command-line processing as a whole: which options are
   performed, which function is called, and with what, and which errors are reported, when
   any number of processors have delegated to each other. *)
From Coq Require Import List Arith Bool ZArith.
From Verif Require Import CliPatternModel CliPatternSpec CliSpecModel CliMatcherModel CliMatcherSpec CliRecorderSpec CliParserSpec CliProcessorModel CliProcessorSpec
  CliArgsModel CliArgsSpec CliRunModel.
Import ListNotations.

(* ---- processors that can be relied upon ---- *)

(* The pattern is unambiguous, and is represented in the structure. *)
Definition pattern_works (st : structure) (k : nat) (q : tseq) : Prop :=
  full_seq st k q /\ exists f t, q = elements f t /\ ~ ambiguous q.

(* The action goes with the pattern: delegation with delegating patterns, and functions with
   patterns they fit.  std::size_t does not stand for alternatives (see
   size_of_alternatives_refuted in CliArgsProps.v). *)
Definition action_works (q : tseq) (deleg : bool) (act : paction) : Prop :=
  match act with
  | PNull => deleg = false
  | PFunc ts => deleg = false /\ fits_class false (CTuple ts) q
  | PDeleg => deleg = true
  end.

Definition works (c : command) (qs : list tseq) : Prop :=
  qs <> [] /\ Forall2 (pattern_works (c_st c)) (map fst (c_patterns c)) qs /\
  spec_ok (c_spec c) /\ args_known (c_spec c) /\ actions_fit (c_spec c) /\
  length (c_actions c) = length qs /\
  forall p q deleg k act attr, nth_error qs p = Some q -> nth_error (c_patterns c) p = Some (k, deleg) ->
    nth_error (c_actions c) p = Some (act, attr) -> action_works q deleg act.
Definition delegs (c : command) : list bool := map snd (c_patterns c).

(* ---- lists of errors ---- *)

(* The same errors, but in order of the arguments they are about; those that are about the
   same argument are in the same order as before. *)
Definition about (a : nat) (l : list perror) : list perror := filter (fun e => er_arg e =? a) l.
Definition sorted_by_arg (l l' : list perror) : Prop :=
  (forall i j e e', i < j -> nth_error l' i = Some e -> nth_error l' j = Some e' -> er_arg e <= er_arg e') /\
  forall a, about a l' = about a l.

(* ---- levels of delegation ---- *)

(* A processor that has delegated: the things on the command line that it has dealt with, and
   what came of it *)
Record level := Level { lv_command : command; lv_taken : list item; lv_progress : progress }.

(* What is on the command line and has been dealt with: the options that are to be performed
   are those that are among the things in the first list. *)
Definition takes (gs : list (nat * list item)) (g : progress) (l : list item) : Prop :=
  (exists rest, items gs = l ++ rest) /\ g_options g = flat_map declared l.

(* What has been asked of the options of the given processors, outermost first, and the
   complaints that it leads to.  The number is the number of levels above. *)
Fixpoint all_asked (ls : list level) : list (nat * (nat * option text)) :=
  match ls with
  | [] => []
  | lv :: ls => all_asked ls ++ map (pair (length ls)) (flat_map asked (lv_taken lv))
  end.
Definition level_complaints (args : list text) (lv : level) : list perror :=
  flat_map (complaint args (c_accepts (lv_command lv))) (lv_taken lv).
Definition all_complaints (args : list text) (ls : list level) : list perror := flat_map (level_complaints args) (rev ls).
(* the errors that were found by the processors themselves *)
Definition all_found (ls : list level) : list perror := flat_map (fun lv => g_errors (lv_progress lv)) (rev ls).

Section Lineage.
  Variable dash equal : nat.
  Variable args : list text.

  (* The processors that have delegated, innermost first, the index of the first argument
     for the next one, and whether something was wrong *)
  Inductive lineage : list level -> nat -> bool -> Prop :=
  | ln_root : lineage [] 1 false
  | ln_deleg : forall ls offset failed c qs gs g p i l, lineage ls offset failed -> works c qs ->
      reads dash equal (c_spec c) false offset (skipn offset args) gs ->
      comes_to (c_spec c) qs (delegs c) (length args) (at_start failed) gs g (RDeleg p i) -> takes gs g l ->
      lineage (Level c l g :: ls) i (g_failed g).

  (* a command line that is at that point *)
  Definition stands_at (a : ancestor) (lv : level) : Prop :=
    a_command a = lv_command lv /\ a_invocations a = g_options (lv_progress lv) /\ a_errors a = g_errors (lv_progress lv) /\
    a_has_error a = g_failed (lv_progress lv).
  Definition at_line (ln : line) (ls : list level) (offset : nat) : Prop :=
    Forall2 stands_at (l_parents ln) ls /\ l_offset ln = offset.

  (* The match of a pattern: the positions of its symbols, with the indexes of the arguments.
     If there are several, it is the one that has the smallest position at the last place
     where it differs from another one. *)
  Definition match_of (q : tseq) (g : progress) (w : list (nat * nat)) : Prop :=
    exists mw, m_seq q mw /\ map snd mw = g_word g /\ w = combine (map fst mw) (map snd (g_symbols g)) /\
      forall mw', m_seq q mw' -> map snd mw' = g_word g -> mw' = mw \/ right_before mw mw'.

  (* What the processor ends with, given what comes of the arguments, and the things on the
     command line that it has dealt with.  now is the level of the processor. *)
  Inductive ends (c : command) (qs : list tseq) (ls : list level) (offset : nat) (g : progress) (taken : list item) :
    poutcome -> list (nat * (nat * option text)) -> ending -> Prop :=
  | en_short : forall d, ends c qs ls offset g taken (RShorted d) [] (EShorted d)
  | en_deleg : forall p i ln, at_line ln (Level c taken g :: ls) i -> lineage (Level c taken g :: ls) i (g_failed g) -> offset <= i <= length args ->
      (exists attr, nth_error (c_actions c) p = Some (PDeleg, attr)) ->
      ends c qs ls offset g taken (RDeleg p i) [] (EDelegated p ln)
  | en_failed : forall l, let now := Level c taken g in
      sorted_by_arg (all_found (now :: ls) ++ all_complaints args (now :: ls)) l -> l <> [] ->
      ends c qs ls offset g taken RFailed (all_asked (now :: ls)) (EErrors l)
  | en_called : forall p q ts attr w v y b, let now := Level c taken g in all_found (now :: ls) = [] -> all_complaints args (now :: ls) = [] ->
      nth_error qs p = Some q -> nth_error (c_actions c) p = Some (PFunc ts, attr) ->
      match_of q g w -> val_seq q w v -> func_args args (c_parses c) ts q v y [] -> (b = true <-> Z.testbit attr 0 = true) ->
      ends c qs ls offset g taken (RInvoke p) (all_asked (now :: ls)) (ECalled p y b)
  | en_null : forall p attr b, let now := Level c taken g in all_found (now :: ls) = [] -> all_complaints args (now :: ls) = [] ->
      nth_error (c_actions c) p = Some (PNull, attr) -> (b = true <-> Z.testbit attr 0 = true) ->
      ends c qs ls offset g taken (RInvoke p) (all_asked (now :: ls)) (ECalled p [] b)
  | en_rejected : forall p q ts attr w v y r l, let now := Level c taken g in all_found (now :: ls) = [] ->
      nth_error qs p = Some q -> nth_error (c_actions c) p = Some (PFunc ts, attr) ->
      match_of q g w -> val_seq q w v -> func_args args (c_parses c) ts q v y r ->
      sorted_by_arg (all_complaints args (now :: ls) ++ map (fun e => Perror (fst e) bad_pattern_arg (bad_value (snd e))) r) l -> l <> [] ->
      ends c qs ls offset g taken (RInvoke p) (all_asked (now :: ls)) (EErrors l)
  | en_rejected_null : forall p attr l, let now := Level c taken g in all_found (now :: ls) = [] ->
      nth_error (c_actions c) p = Some (PNull, attr) -> sorted_by_arg (all_complaints args (now :: ls)) l -> l <> [] ->
      ends c qs ls offset g taken (RInvoke p) (all_asked (now :: ls)) (EErrors l).
End Lineage.
