(* Specification vocabulary for C144 and C145, independent of the model.  matches is that of StringMatcherSpec.v. *)
From Coq Require Import ZArith List.
From Verif Require Import StringMatcherSpec.
Import ListNotations.

(* words with gaps of delimiters: the string is made of the words, in this order, with nothing but delimiters around them, and at least
   one delimiter between any two *)
Definition gap (delim : Z) (g : list Z) : Prop := Forall (fun c => c = delim) g.
Definition is_word (delim : Z) (w : list Z) : Prop := w <> [] /\ Forall (fun c => c <> delim) w.

Inductive worded (delim : Z) : list Z -> list (list Z) -> Prop :=
| worded_none g : gap delim g -> worded delim g []
| worded_last g w g' : gap delim g -> is_word delim w -> gap delim g' -> worded delim (g ++ w ++ g') [w]
| worded_more g w str words : gap delim g -> is_word delim w -> words <> [] -> worded delim str words ->
    worded delim (g ++ w ++ delim :: str) (w :: words).

Definition dash : list Z := [45%Z].

Definition some_match (patterns : list (list Z)) (name : list Z) : Prop := exists p, In p patterns /\ matches 42 p name.

(* the documented meaning of include patterns and exclude patterns *)
Definition filter_includes (inc exc : list (list Z)) (name : list Z) : Prop :=
  (inc = [] \/ some_match inc name) /\ ~ some_match exc name.
