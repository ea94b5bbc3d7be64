(* Independent specification of the matching of command-line arguments against patterns. *)
From Coq Require Import List Arith Bool.
From Verif Require Import CliPatternModel CliPatternSpec CliMatcherModel.
Import ListNotations.

Section Spec.
  Variable ts : list tseq.       (* the patterns *)
  Variable delegs : list bool.   (* which patterns are delegating *)

  (* the i'th pattern matches a sequence of symbols *)
  Definition matches (i : nat) (w : list psym) : Prop :=
    exists t mw, nth_error ts i = Some t /\ m_seq t mw /\ map snd mw = w.

  (* it is the first one that does *)
  Definition first_match (i : nat) (w : list psym) : Prop :=
    matches i w /\ forall j, j < i -> ~ matches j w.

  (* the sequence can be extended to a match *)
  Definition viable (w : list psym) : Prop := exists i u, matches i (w ++ u).

  (* two patterns match the same sequence *)
  Definition cross_ambiguous (i j : nat) : Prop := i < j /\ exists w, matches i w /\ matches j w.

  (* the symbols of a sequence can be assigned to the positions of the pattern in two ways
     that differ in that a symbol goes to the position a in one way, and to the position b
     in the other way *)
  Definition positions_ambiguous (i a b : nat) : Prop :=
    exists t u1 u2 s v, nth_error ts i = Some t /\ m_seq t (u1 ++ (a, s) :: v) /\ m_seq t (u2 ++ (b, s) :: v) /\
      map snd u1 = map snd u2 /\ a <> b.
  Definition positionally_ambiguous (i : nat) : Prop :=
    exists t w1 w2, nth_error ts i = Some t /\ m_seq t w1 /\ m_seq t w2 /\ map snd w1 = map snd w2 /\ w1 <> w2.

  (* a delegating pattern has a match, and is the first one to match, and the match is a
     proper prefix of a match of a pattern *)
  Definition prefix_deleg (i : nat) : Prop :=
    nth_error delegs i = Some true /\ exists w s u j, first_match i w /\ matches j (w ++ s :: u).
End Spec.

(* The matcher was reached from another one through calls to consume().  The list contains
   what was consumed. *)
Inductive reached (m0 : matcher) : matcher -> list (psym * nat) -> Prop :=
| reached_start : reached m0 m0 []
| reached_consumed : forall m acc s a m', reached m0 m acc -> consume m s a = Ok (m', true) ->
    reached m0 m' (acc ++ [(s, a)])
| reached_rejected : forall m acc s a m', reached m0 m acc -> consume m s a = Ok (m', false) ->
    reached m0 m' acc.

(* A match comes before another match if, at the last place where they differ, its position
   is the smaller one. *)
Definition right_before (w1 w2 : list (nat * psym)) : Prop :=
  exists u1 u2 a b s v, w1 = u1 ++ (a, s) :: v /\ w2 = u2 ++ (b, s) :: v /\ length u1 = length u2 /\ a < b.
