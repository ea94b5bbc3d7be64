(* Independent specification of the arguments of pattern functions: how values of patterns
   are described, which functions fit which patterns, and what functions are called with. *)
From Coq Require Import List Arith Bool.
From Verif Require Import CliPatternModel CliPatternSpec CliSpecModel CliRecorderSpec CliArgsModel.
Import ListNotations.

(* ---- descriptions of values: pattern_args_parser.hpp:93-99 ---- *)

(* The elements that correspond to parameters, from left to right, outer ones before inner
   ones, each together with a number: the argument index of a value slot, 1 for optional
   elements that are present, 0 for those that are absent, the number of repetitions, or the
   index of the branch *)
Inductive says_elem : telem -> pval -> list (telem * nat) -> Prop :=
| says_slot : forall i s a, is_slot s = true -> says_elem (ESym i s) (VSym i a) [(ESym i s, a)]
| says_nothing : forall i s a, is_slot s = false -> says_elem (ESym i s) (VSym i a) []
| says_absent : forall q, says_elem (EOpt q) VAbsent [(EOpt q, 0)]
| says_present : forall q v l, says_seq q v l -> says_elem (EOpt q) (VPresent v) ((EOpt q, 1) :: l)
| says_rep : forall q vs l, says_reps q vs l -> says_elem (ERep q) (VRep vs) ((ERep q, length vs) :: l)
| says_alt : forall b k q v l, branch b k = Some q -> says_seq q v l -> says_elem (EAlt b) (VAlt k v) ((EAlt b, k) :: l)
with says_seq : tseq -> list pval -> list (telem * nat) -> Prop :=
| says_nil : says_seq SNil [] []
| says_cons : forall e q v vs l1 l2, says_elem e v l1 -> says_seq q vs l2 -> says_seq (SCons e q) (v :: vs) (l1 ++ l2)
with says_reps : tseq -> list (list pval) -> list (telem * nat) -> Prop :=
| says_done : forall q, says_reps q [] []
| says_more : forall q v vs l1 l2, says_seq q v l1 -> says_reps q vs l2 -> says_reps q (v :: vs) (l1 ++ l2).

(* Such a description in terms of the elements of the structure *)
Definition encodes (st : structure) (ds : list desc) (l : list (telem * nat)) : Prop :=
  Forall2 (fun d x => full_elem st (d_elem d) (fst x) /\ d_value d = snd x) ds l.

(* ---- elements that correspond to parameters, and their values ---- *)

Fixpoint params (q : tseq) : list telem :=
  match q with SNil => [] | SCons e q => if takes_param e then e :: params q else params q end.

Fixpoint params_of (q : tseq) (v : list pval) : list (telem * pval) :=
  match q, v with
  | SCons e q, x :: v => if takes_param e then (e, x) :: params_of q v else params_of q v
  | _, _ => []
  end.

(* ---- functions that fit: cli/spec.hpp:29-63 ---- *)

(* Types that a value slot can have: whatever there is a parser of values for *)
Definition scalar (t : ptype) : bool := match t with TValue _ | TBool | TSize => true | _ => false end.

Section Fits.
  (* whether std::size_t can stand for alternatives without value slots *)
  Variable alt_size : bool.

  Inductive fits : ptype -> telem -> Prop :=
  | fits_slot : forall t i s, scalar t = true -> fits t (ESym i s)
  | fits_bool : forall q, params q = [] -> fits TBool (EOpt q)
  | fits_count : forall q, params q = [] -> fits TSize (ERep q)
  | fits_opt_count : forall q q', params q = [ERep q'] -> params q' = [] -> fits TSize (EOpt q)
  | fits_choice : forall b, alt_size = true -> (forall k q, branch b k = Some q -> params q = []) -> fits TSize (EAlt b)
  | fits_optional : forall c q, fits_class c q -> fits (TOptional c) (EOpt q)
  | fits_vector : forall c q, fits_class c q -> fits (TVector c) (ERep q)
  | fits_opt_vector : forall c q q', params q = [ERep q'] -> fits_class c q' -> fits (TVector c) (EOpt q)
  | fits_variant : forall cs b, fits_branches cs b -> fits (TVariant cs) (EAlt b)
  with fits_class : pclass -> tseq -> Prop :=
  | fits_tuple : forall ts q, fits_all ts (params q) -> fits_class (CTuple ts) q
  | fits_plain : forall t q e, params q = [e] -> fits t e -> fits_class (CPlain t) q
  with fits_all : ptypes -> list telem -> Prop :=
  | fits_none : fits_all TNil []
  | fits_more : forall t ts e es, fits t e -> fits_all ts es -> fits_all (TCons t ts) (e :: es)
  with fits_branches : pclasses -> tbranches -> Prop :=
  | fits_last : forall c q, fits_class c q -> fits_branches (CCons c CNil) (BOne q)
  | fits_next : forall c cs q b, fits_class c q -> fits_branches cs b -> fits_branches (CCons c cs) (BCons q b).
End Fits.

(* Elements among which, at any depth, there are no alternatives where all branches are
   without parameters *)
Inductive choices_free : telem -> Prop :=
| free_sym : forall i s, choices_free (ESym i s)
| free_opt : forall q, all_free q -> choices_free (EOpt q)
| free_rep : forall q, all_free q -> choices_free (ERep q)
| free_alt : forall b, ~ (forall k q, branch b k = Some q -> params q = []) ->
    (forall k q, branch b k = Some q -> all_free q) -> choices_free (EAlt b)
with all_free : tseq -> Prop :=
| free_nil : all_free SNil
| free_cons : forall e q, choices_free e -> all_free q -> all_free (SCons e q).

(* ---- the arguments of a function ---- *)

Fixpoint class_at (cs : pclasses) (k : nat) : option pclass :=
  match cs, k with
  | CNil, _ => None
  | CCons c _, O => Some c
  | CCons _ cs, S k => class_at cs k
  end.

Section Gives.
  Variable args : list text.
  Variable accepts : ptype -> text -> bool.

  (* What a parameter of a particular type is to hold, given an element of the pattern and
     its value, and the arguments of the command line that are rejected, from left to right *)
  Inductive gives : ptype -> telem -> pval -> parg -> list (nat * text) -> Prop :=
  | gives_value : forall t i s a x, scalar t = true -> nth_error args a = Some x -> accepts t x = true ->
      gives t (ESym i s) (VSym i a) (AParsed x) []
  | gives_error : forall t i s a x, scalar t = true -> nth_error args a = Some x -> accepts t x = false ->
      gives t (ESym i s) (VSym i a) AUnset [(a, x)]
  | gives_false : forall q, gives TBool (EOpt q) VAbsent (ABool false) []
  | gives_true : forall q v, gives TBool (EOpt q) (VPresent v) (ABool true) []
  | gives_count : forall q vs, gives TSize (ERep q) (VRep vs) (ASize (length vs)) []
  | gives_zero : forall q, gives TSize (EOpt q) VAbsent (ASize 0) []
  | gives_opt_count : forall q v q' vs, params_of q v = [(ERep q', VRep vs)] ->
      gives TSize (EOpt q) (VPresent v) (ASize (length vs)) []
  | gives_choice : forall b k v, gives TSize (EAlt b) (VAlt k v) (ASize k) []
  | gives_no_optional : forall c q, gives (TOptional c) (EOpt q) VAbsent ANone []
  | gives_optional : forall c q v l r, gives_class c q v l r -> gives (TOptional c) (EOpt q) (VPresent v) (ASome l) r
  | gives_vector : forall c q vs l r, gives_reps c q vs l r -> gives (TVector c) (ERep q) (VRep vs) (AVec l) r
  | gives_no_vector : forall c q, gives (TVector c) (EOpt q) VAbsent (AVec []) []
  | gives_opt_vector : forall c q v q' vs l r, params_of q v = [(ERep q', VRep vs)] -> gives_reps c q' vs l r ->
      gives (TVector c) (EOpt q) (VPresent v) (AVec l) r
  | gives_variant : forall cs c b k q v l r, class_at cs k = Some c -> branch b k = Some q -> gives_class c q v l r ->
      gives (TVariant cs) (EAlt b) (VAlt k v) (AVar k l) r
  with gives_class : pclass -> tseq -> list pval -> list parg -> list (nat * text) -> Prop :=
  | gives_tuple : forall ts q v l r, gives_all ts (params_of q v) l r -> gives_class (CTuple ts) q v l r
  | gives_plain : forall t q v e x y r, params_of q v = [(e, x)] -> gives t e x y r -> gives_class (CPlain t) q v [y] r
  with gives_all : ptypes -> list (telem * pval) -> list parg -> list (nat * text) -> Prop :=
  | gives_none : gives_all TNil [] [] []
  | gives_more : forall t ts e x ps y l r1 r2, gives t e x y r1 -> gives_all ts ps l r2 ->
      gives_all (TCons t ts) ((e, x) :: ps) (y :: l) (r1 ++ r2)
  with gives_reps : pclass -> tseq -> list (list pval) -> list (list parg) -> list (nat * text) -> Prop :=
  | gives_end : forall c q, gives_reps c q [] [] []
  | gives_again : forall c q v vs l ls r1 r2, gives_class c q v l r1 -> gives_reps c q vs ls r2 ->
      gives_reps c q (v :: vs) (l :: ls) (r1 ++ r2).

  (* The arguments of the function that the pattern is associated with, and the arguments of
     the command line that are rejected *)
  Definition func_args (ts : ptypes) (q : tseq) (v : list pval) (l : list parg) (r : list (nat * text)) : Prop :=
    gives_class (CTuple ts) q v l r.
End Gives.
