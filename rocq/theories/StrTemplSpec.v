(* What string templates mean (src/archon/core/string_template.hpp:58-126, 294-316). *)
From Coq Require Import List.
From Verif Require Import StrTemplModel.
Import ListNotations.

Section Spec.
  Variable A : Type.

  (* the parts of a template: text, a parameter to be substituted, @@, and something that is
     wrong, which stands for itself if the error handler says to go on *)
  Inductive part := Text (c : nat) | Value (p : param A) | At | Wrong (e : terror) (s : str).

  Section Parts.
    Variable narrow : nat -> nat.
    Variable defined : str -> param A -> Prop.

    Definition is_defined (name : str) : Prop := exists p, defined (map narrow name) p.

    (* the parts of a string, when i characters come before it *)
    Inductive parts : nat -> str -> list part -> Prop :=
    | p_nil : forall i, parts i [] []
    | p_text : forall i c s l, c <> 64 -> parts (S i) s l -> parts i (c :: s) (Text c :: l)
    | p_end : forall i, parts i [64] [Wrong (bad_syntax, at_end) [64]]
    | p_at : forall i s l, parts (2 + i) s l -> parts i (64 :: 64 :: s) (At :: l)
    | p_short : forall i c s p l, c <> 64 -> c <> 123 -> defined (map narrow [c]) p -> parts (2 + i) s l ->
        parts i (64 :: c :: s) (Value p :: l)
    | p_short_undefined : forall i c s l, c <> 64 -> c <> 123 -> ~ is_defined [c] -> parts (2 + i) s l ->
        parts i (64 :: c :: s) (Wrong (bad_param_ref, undefined [c] [64; c]) [64; c] :: l)
    | p_long : forall i name s p l, ~ In 125 name -> defined (map narrow name) p -> parts (3 + length name + i) s l ->
        parts i (64 :: 123 :: name ++ 125 :: s) (Value p :: l)
    | p_long_undefined : forall i name s l, ~ In 125 name -> ~ is_defined name -> parts (3 + length name + i) s l ->
        parts i (64 :: 123 :: name ++ 125 :: s) (Wrong (bad_param_ref, undefined name (64 :: 123 :: name ++ [125])) (64 :: 123 :: name ++ [125]) :: l)
    | p_unterminated : forall i s l, ~ In 125 s -> parts (2 + i) s l ->
        parts i (64 :: 123 :: s) (Wrong (bad_syntax, at_offset i) [64; 123] :: l).
  End Parts.

  Definition wrongs (l : list part) : list terror := flat_map (fun x => match x with Wrong e _ => [e] | _ => [] end) l.

  (* What is written, and whether there is an exception.  Parameters are evaluated with the
     original flags. *)
  Fixpoint written (args : A) (flags : nat) (l : list part) : str * bool :=
    match l with
    | [] => ([], false)
    | Text c :: l => let (w, b) := written args flags l in (c :: w, b)
    | At :: l => let (w, b) := written args flags l in (64 :: w, b)
    | Wrong _ s :: l => let (w, b) := written args flags l in (s ++ w, b)
    | Value p :: l =>
      match snd p args flags with
      | (v, _, true) => (v, true)
      | (v, _, false) => let (w, b) := written args flags l in (v ++ w, b)
      end
    end.

  (* that the error handler goes on with all of some errors *)
  Definition goes_on (handler : list terror -> terror -> bool) (errors : list terror) : Prop :=
    forall pre e post, errors = pre ++ e :: post -> handler pre e = true.
End Spec.
