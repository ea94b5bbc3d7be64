(* The syntax of lists (src/archon/core/as_list.hpp:44-270). *)
From Coq Require Import List Arith.
From Verif Require Import AsListModel.
Import ListNotations.

Definition spaces (s : text) : Prop := Forall (eq 32) s.
Definition begins_with_space (s : text) : Prop := exists r, s = 32 :: r.
Definition ends_with_space (s : text) : Prop := exists r, s = r ++ [32].

Section Spec.
  Variable c : config.

  (* spaces where they are allowed: none if none are accepted.  They are all of the spaces that
     are in that place. *)
  Definition allowed (sp : text) : Prop := spaces sp /\ (space c = sp_none -> sp = []).
  Definition accepts_space : Prop := space c <> sp_none.

  (* texts with separators between them *)
  Inductive separated : list text -> text -> Prop :=
  | sep_one : forall t, ~ In (separator c) t -> separated [t] t
  | sep_more : forall t sp ts s, ~ In (separator c) t -> allowed sp -> (accepts_space -> ~ begins_with_space s) -> separated ts s ->
      separated (t :: ts) (t ++ separator c :: sp ++ s).

  (* a string that is a list of texts *)
  Definition is_list_of (ts : list text) (str : text) : Prop :=
    if bracketed c then
      exists sp1 s sp2, str = opening_bracket c :: sp1 ++ s ++ sp2 ++ [closing_bracket c] /\ allowed sp1 /\ allowed sp2 /\
        (accepts_space -> ~ begins_with_space s /\ ~ ends_with_space s) /\ (s = [] -> sp2 = []) /\ separated ts s
    else separated ts str.

  (* a text that can be an element of a list without being mistaken for something else *)
  Definition clean (t : text) : Prop :=
    ~ In (separator c) t /\ (accepts_space -> t <> [] /\ ~ begins_with_space t /\ ~ ends_with_space t).
End Spec.

(* Texts with something between them *)
Fixpoint joined (between : text) (ts : list text) : text :=
  match ts with
  | [] => []
  | [t] => t
  | t :: ts => t ++ between ++ joined between ts
  end.

(* A space is added after each separator, and inside of brackets. *)
Definition adds_space (c : config) : Prop := space c = sp_tight \/ space c = sp_loose \/ (space c = sp_auto /\ separator c <> 32).
Definition adds_inside (c : config) : Prop := space c = sp_loose.

(* Elements that are read from texts: each element is assigned a new value *)
Definition assigned {V} (delegate : text -> V -> bool * V) (ts : list text) (l l' : list V) : Prop :=
  length l = length ts /\ length l' = length ts /\
  forall i t v v', nth_error ts i = Some t -> nth_error l i = Some v -> nth_error l' i = Some v' -> delegate t v = (true, v').

(* A section at the end can be left out if it is made of default values, or of copies of the
   last element that is not left out, and enough elements remain. *)
Definition can_elide {V} (default : V) (min_elems : nat) (copy_last : bool) (l : list V) (k : nat) : Prop :=
  1 <= k <= length l /\ (min_elems <= k \/ k = length l) /\
  exists keep fill n, l = keep ++ repeat fill n /\ length keep = k /\
    if copy_last then exists keep', keep = keep' ++ [fill] else fill = default.
