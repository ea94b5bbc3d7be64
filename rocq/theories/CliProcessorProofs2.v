(* Interpretation of command-line arguments: the result is unique, and the code arrives at
   it. *)
From Coq Require Import List Arith Bool ZArith Lia.
From Verif Require Import CliPatternModel CliMatcherModel CliMatcherSpec CliPatternSpec CliSpecModel CliRecorderModel CliRecorderSpec
  CliOptionProps CliProcessorModel CliProcessorSpec CliProcessorProofs ArrLib.
Import ListNotations.

(* ---- uniqueness ---- *)

Section Unique.
  Variable s : spec.
  Variable ts : list tseq.
  Variable delegs : list bool.

  Lemma first_match_unique w p p' : first_match ts p w -> first_match ts p' w -> p = p'.
  Proof. intros [A B] [A' B']. destruct (Nat.lt_trichotomy p p') as [H|[H|H]]; [now elim (B' p)|easy|now elim (B p')]. Qed.

  Lemma gives_up_unique g g1 v1 g2 v2 : gives_up ts delegs g g1 v1 -> gives_up ts delegs g g2 v2 -> g1 = g2 /\ v1 = v2.
  Proof. intros H H'. inversion H; subst; inversion H'; subst; tauto. Qed.

  Lemma put_unique a y i g g1 v1 g2 v2 : put ts delegs a y i g g1 v1 -> put ts delegs a y i g g2 v2 -> g1 = g2 /\ v1 = v2.
  Proof. intros H H'. inversion H; subst; inversion H'; subst; try tauto; try congruence; eapply gives_up_unique; eassumption. Qed.

  Lemma plain_symbol_unique a b w y y' : plain_symbol s ts a b w y -> plain_symbol s ts a b w y' -> y = y'.
  Proof.
    intros [(B & k & K & -> & V)|(-> & A)] [(B' & k' & K' & -> & V')|(-> & A')]; try easy; [congruence| |];
      exfalso; [destruct A' as [A|A]|destruct A as [A|A]]; try congruence; eapply A; eassumption.
  Qed.

  Lemma refers_unique a k i g g1 v1 g2 v2 : refers ts delegs a k i g g1 v1 -> refers ts delegs a k i g g2 v2 -> g1 = g2 /\ v1 = v2.
  Proof. intros H H'. inversion H; subst; inversion H'; subst; try easy; try congruence. eapply put_unique; eassumption. Qed.

  Lemma follows_unique g x g1 v1 g2 v2 : follows s ts delegs g x g1 v1 -> follows s ts delegs g x g2 v2 -> g1 = g2 /\ v1 = v2.
  Proof.
    intros H H'. inversion H; subst; inversion H'; subst; try easy; try congruence;
      repeat match goal with A : ?x = Some (?d, ?o), B : ?x = Some (?d', ?o') |- _ => assert (d = d') by congruence; assert (o = o') by congruence; subst; clear B end;
      try easy; try congruence; try (eapply refers_unique; eassumption); try (eapply gives_up_unique; eassumption).
    match goal with A : plain_symbol _ _ _ _ _ ?y, B : plain_symbol _ _ _ _ _ ?y' |- _ => assert (y = y') by (eapply plain_symbol_unique; eassumption); subst end.
    eapply put_unique; eassumption.
  Qed.

  Lemma follows_all_unique l : forall g g1 v1 g2 v2, follows_all s ts delegs g l g1 v1 -> follows_all s ts delegs g l g2 v2 -> g1 = g2 /\ v1 = v2.
  Proof.
    induction l as [|x l IH]; intros g g1 v1 g2 v2 H H'; inversion H; subst; inversion H'; subst; try easy;
      match goal with A : follows _ _ _ g x _ _, B : follows _ _ _ g x _ _ |- _ => destruct (follows_unique _ _ _ _ _ _ A B) as [? ?]; subst end;
      try easy; try congruence. eapply IH; eassumption.
  Qed.

  Lemma comes_to_unique n gs : forall g g1 r1 g2 r2, comes_to s ts delegs n g gs g1 r1 -> comes_to s ts delegs n g gs g2 r2 -> g1 = g2 /\ r1 = r2.
  Proof.
    assert (D : forall g p p', delegates ts delegs g p -> delegates ts delegs g p' -> p = p').
    { intros g p p' (_ & A & _) (_ & B & _). eapply first_match_unique; eassumption. }
    induction gs as [|[i l] gs IH]; intros g g1 r1 g2 r2 H H'; inversion H; subst; inversion H'; subst; try easy;
      repeat match goal with
      | A : delegates _ _ ?g ?p, B : delegates _ _ ?g ?p' |- _ => assert (p = p') by (eapply D; eassumption); subst; clear B
      | A : delegates _ _ ?g ?p |- _ => lazymatch goal with _ : first_match _ p _ |- _ => fail | _ => pose proof A as (? & ? & ?) end
      | A : first_match _ ?p ?w, B : first_match _ ?p' ?w |- _ => assert (p = p') by (eapply first_match_unique; eassumption); subst; clear B
      | A : follows_all _ _ _ ?g ?l _ _, B : follows_all _ _ _ ?g ?l _ _ |- _ => destruct (follows_all_unique _ _ _ _ _ _ A B) as [? ?]; subst; clear B
      end; try easy; try congruence;
      try (exfalso; match goal with A : forall p, ~ delegates _ _ _ p, B : delegates _ _ _ _ |- _ => eapply A; exact B
             | A : forall p, ~ matches _ p _, B : first_match _ _ _ |- _ => eapply A; apply B end).
    - eapply IH; eassumption.
    - match goal with A : VShort _ = VShort _ |- _ => now injection A as -> end.
  Qed.
End Unique.
