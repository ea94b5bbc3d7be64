(* What loggers are for: each channel of a logger has a list of routes.  A route leads to a destination, adds a prefix, and
   passes limits. *)
From Coq Require Import ZArith Bool List.
From Verif Require Import LogLimModel.
Import ListNotations.
Local Open Scope Z_scope.

Definition route := (nat * list Z * list nat)%type.

(* routes with text added to the prefix, after what is there *)
Definition suffix (text : list Z) (rs : list route) : list route :=
  map (fun r : route => let '(id, prefix, limits) := r in (id, prefix ++ text, limits)) rs.

(* the destinations that are reached at a particular level, with the prefix that the message has there, when the limits are
   as specified *)
Definition reached (current : nat -> Z) (level : Z) (rs : list route) : list (nat * list Z) :=
  map fst (filter (fun r : route => forallb (fun i => level <=? current i) (snd r)) rs).

(* A logger: the name of the selected channel, the prefix, the routes of each channel, and whether the pattern includes the selected
   channel if this is a limiting logger *)
Record slogger := SLogger {
  s_own : nat;
  s_prefix : list Z;
  s_map : nat -> option (list route);
  s_matched : bool;
}.

Definition override (m : nat -> option (list route)) (k : nat) (rs : list route) : nat -> option (list route) :=
  fun n => if (n =? k)%nat then Some rs else m n.

(* the channel that is the target of a rule; messages get the prefix of the target logger too *)
Definition s_target (ds : list slogger) (k : nat) (target : option nat) : list route :=
  match nth_error ds k with
  | Some d =>
    match s_map d (match target with Some t => t | None => s_own d end) with Some rs => suffix (s_prefix d) rs | None => [] end
  | None => []
  end.

(* the effect of a list of rules, later ones override earlier ones *)
Definition s_rules (ds : list slogger) (m : nat -> option (list route)) (rules : list rule)
    : nat -> option (list route) :=
  fold_left (fun m (r : rule) => override m (fst r) (s_target ds (fst (snd r)) (snd (snd r)))) rules m.

(* the new logger, given the number of limits so far, and the existing loggers *)
Definition s_construct (limits : nat) (ds : list slogger) (c : command) : slogger :=
  let base k := nth k ds (SLogger 0 [] (fun _ => None) true) in
  match c with
  | NewStream id => SLogger 0 [] (override (fun _ => None) 0 [(id, [], [])]) true
  | NewNull => SLogger 0 [] (override (fun _ => None) 0 []) true
  | NewCopy k => SLogger (s_own (base k)) (s_prefix (base k)) (s_map (base k)) true
  | NewPrefix k text => SLogger (s_own (base k)) (s_prefix (base k) ++ text) (s_map (base k)) true
  | NewSelect k name => SLogger name (s_prefix (base k)) (s_map (base k)) true
  | NewJail k => SLogger 0 [] (override (fun _ => None) 0 (s_target ds k None)) true
  | NewLimit k _ matches =>
    SLogger (s_own (base k)) (s_prefix (base k))
      (fun n => if matches n then option_map (map (fun r : route => (fst r, limits :: snd r))) (s_map (base k) n)
                else s_map (base k) n)
      (matches (s_own (base k)))
  | NewDup k rules =>
    SLogger (s_own (base k)) []
      (fun n => match s_rules ds (fun _ => None) rules n with
                | Some rs => option_map (fun rs0 => suffix (s_prefix (base k)) rs0 ++ rs) (s_map (base k) n)
                | None => option_map (suffix (s_prefix (base k))) (s_map (base k) n)
                end) true
  | NewChannel k rules => SLogger (s_own (base k)) []
      (s_rules ds (fun n => option_map (suffix (s_prefix (base k))) (s_map (base k) n)) rules) true
  end.

Definition is_limit (c : command) : bool := match c with NewLimit _ _ _ => true | _ => false end.

Fixpoint s_run (limits : nat) (ds : list slogger) (cs : list command) : list slogger :=
  match cs with
  | [] => ds
  | c :: cs => s_run (if is_limit c then S limits else limits) (ds ++ [s_construct limits ds c]) cs
  end.

(* levels that can be specified for a fixed limit *)
Definition command_ok (c : command) : Prop :=
  match c with NewLimit _ (Some l) _ => 0 <= l <= 8 | _ => True end.

(* a later state of the limits: more limits may have been added, and only limits that are not fixed may have changed *)
Definition later (st st' : store) : Prop :=
  (length st <= length st')%nat /\
  forall i, (i < length st)%nat ->
    li_fixed (get_impl st' i) = li_fixed (get_impl st i) /\
    (li_fixed (get_impl st i) <> int_max -> li_variable (get_impl st' i) = li_variable (get_impl st i)).
