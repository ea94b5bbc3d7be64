(* What the formatting of a timestamp is to generate *)
From Coq Require Import ZArith List.
From Verif Require Import IntTextSpec.
Import ListNotations.
Open Scope Z_scope.

(* a format is a sequence of characters and conversions *)
Inductive token := Char (c : Z) | Conv (c : Z) | ModConv (modifier c : Z).

Definition token_ok (t : token) : Prop :=
  match t with
  | Char c => c <> 37
  | Conv c => c <> 69 /\ c <> 79
  | ModConv m c => (m = 69 \/ m = 79) /\ c <> 37
  end.

Definition token_text (t : token) : list Z :=
  match t with
  | Char c => [c]
  | Conv c => [37; c]
  | ModConv m c => [37; m; c]
  end.
Definition format_text (ts : list token) : list Z := concat (map token_text ts).

(* %S or %T *)
Definition has_seconds (t : token) : Prop := t = Conv 83 \/ t = Conv 84.

Section Expansion.
Context {C : Type} (widen : Z -> C) (conv : option Z -> Z -> list C).

(* what std::put_time() generates *)
Definition expansion (t : token) : list C :=
  match t with
  | Char c => [widen c]
  | Conv c => conv None c
  | ModConv m c => conv (Some m) c
  end.
Definition conventional (ts : list token) : list C := concat (map expansion ts).

(* as documented: the fraction is added to the first one that has seconds *)
Inductive documented (frac : list C) : list token -> list C -> Prop :=
| doc_none : forall ts, Forall (fun t => ~ has_seconds t) ts -> documented frac ts (conventional ts)
| doc_first : forall ts t ts', Forall (fun t => ~ has_seconds t) ts -> has_seconds t ->
    documented frac (ts ++ t :: ts') (conventional ts ++ expansion t ++ frac ++ conventional ts').

(* the fraction is added to all that have seconds *)
Inductive all_extended (frac : list C) : list token -> list C -> Prop :=
| ext_nil : all_extended frac [] []
| ext_plain : forall t ts out, ~ has_seconds t -> all_extended frac ts out ->
    all_extended frac (t :: ts) (expansion t ++ out)
| ext_seconds : forall t ts out, has_seconds t -> all_extended frac ts out ->
    all_extended frac (t :: ts) (expansion t ++ frac ++ out).

(* a point and the specified number of digits of the fraction, rounded down *)
Definition fraction (num_digits : Z) (nanoseconds : Z) (frac : list C) : Prop :=
  exists cs ds, frac = widen 46 :: map widen cs /\ Z.of_nat (length cs) = num_digits /\ digit_string 10 cs ds /\
    positional 10 ds = nanoseconds / 10 ^ (9 - num_digits).
End Expansion.
