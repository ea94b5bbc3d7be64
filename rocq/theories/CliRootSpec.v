(* What is expected of the taking over of arguments, and of the accumulation of errors. *)
From Coq Require Import List Arith ZArith.
From Verif Require Import CliSpecModel CliRootModel.
Import ListNotations.

(* The text that a view shows, given what argv refers to, and what is held by the string
   holder.  The view is inside of the string that it refers to. *)
Definition shows (argv held : list text) (x : view) (t : text) : Prop :=
  exists s a b, nth_error (match vw_owner x with Argv _ => argv | Held _ => held end) (match vw_owner x with Argv i => i | Held i => i end) = Some s /\
    s = a ++ t ++ b /\ vw_begin x = length a /\ vw_size x = length t.

Definition is_held (x : view) : Prop := exists i, vw_owner x = Held i.

(* Arguments that come out even: they are divided into groups, none of which can do without
   its last argument to exceed 8192 characters. *)
Inductive even : list text -> Prop :=
| even_nil : even []
| even_add : forall ts c x, even ts -> (Z.of_nat (length (concat c)) <= 8192 < Z.of_nat (length (concat (c ++ [x]))))%Z -> even (ts ++ c ++ [x]).

(* Arguments of which those that come after the last full group, of which there is at least
   one, are empty *)
Definition trailing_empty (ts : list text) : Prop := exists pre n, even pre /\ ts = pre ++ repeat [] (S n).
