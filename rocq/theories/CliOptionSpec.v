(* Specification for the registration of options *)
From Coq Require Import List Arith Bool ZArith.
From Verif Require Import CliPatternModel CliSpecModel CliRecorderModel CliRecorderSpec.
Import ListNotations.

Definition opt_form (f : oform) : leaf := if of_long f then LLong (of_lexeme f) else LShort (of_lexeme f).

(* A specification to which options can still be added: there are no patterns, and all that
   is known is options. *)
Definition open_spec (s : spec) : Prop :=
  spec_ok s /\ k_patterns s = 0 /\ forall i p, nth_error (k_protos s) i = Some p -> pr_option p <> None.

(* the form is one of those of the option with the given index *)
Definition form_of (s : spec) (f : oform) (j : nat) : Prop :=
  exists i, sym_in s (opt_form f) = Some (Psym s_proto_option i) /\ pr_option (proto_at s i) = Some j.

(* What is wrong with the declaration of an option *)
Definition option_flaw (s : spec) (fs : list oform) (arg : argspec) (attr : Z) (act : action) (c : spec_code) (m : spec_msg) : Prop :=
  (c = bad_option_forms_syntax /\ m = no_forms /\ fs = []) \/
  (c = bad_option_attr /\ m = invalid_attributes /\ exists n, (3 <= n)%Z /\ Z.testbit attr n = true) \/
  (c = option_arg_not_allowed /\ m = arg_short_circuit /\ ar_allow arg = true /\ Z.testbit attr 0 = true) \/
  (c = option_arg_not_allowed /\ m = arg_further_values /\ ar_allow arg = true /\ Z.testbit attr 1 = true) \/
  (c = option_func_mismatch /\ m = action_rejects_arg /\ ar_allow arg = true /\ ac_allow act = false) \/
  (c = option_func_mismatch /\ m = action_requires_arg /\ ar_allow arg = true /\ ar_require arg = false /\ ac_require act = true) \/
  (c = option_form_reuse /\ exists f j, m = form_reuse (1 + j) /\ In f fs /\ form_of s f j).
