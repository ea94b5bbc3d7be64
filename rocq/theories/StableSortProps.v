(* Theorem for C114 (core::stable_sort). *)
From Coq Require Import List Bool Arith Lia Sorting.Sorted Sorting.Permutation.
From Verif Require Import ArrLib StableSortModel StableSortSpec StableSortProofs.
Import ListNotations.

(* C114: for a comparison that is a strict weak ordering, stable_sort stays inside of the
   range, terminates, and leaves a sorted permutation of it in which elements that are
   equivalent for the comparison have kept their order *)
Theorem stable_sort_exact : forall (A : Type) (less : A -> A -> bool) l, strict_weak less ->
  exists l', stable_sort less l = Some l' /\ stably_sorted less l l'.
Proof. intros A less l H. exact (stable_sort_ok less H l). Qed.

(* the result is determined by this: it is the only stably sorted rearrangement *)
Lemma sorted_unique {A} (less : A -> A -> bool) : strict_weak less -> forall l1 l2,
  StronglySorted (fun x y => less y x = false) l1 -> StronglySorted (fun x y => less y x = false) l2 ->
  (forall x, filter (tied less x) l1 = filter (tied less x) l2) -> l1 = l2.
Proof.
  intros (Hirr & Htr & Hneg) l1. induction l1 as [|a l1 IH]; intros l2 H1 H2 F.
  - destruct l2 as [|b l2]; [reflexivity|]. specialize (F b). cbn in F. unfold tied in F at 1.
    rewrite Hirr in F. discriminate F.
  - destruct l2 as [|b l2].
    { specialize (F a). cbn in F. unfold tied in F at 1. rewrite Hirr in F. discriminate F. }
    apply StronglySorted_inv in H1. apply StronglySorted_inv in H2. destruct H1 as [H1 F1], H2 as [H2 F2].
    rewrite Forall_forall in F1, F2.
    assert (M : forall l c d, filter (tied less c) (c :: l) = filter (tied less c) (d) -> In c d).
    { intros l c d E. assert (In c (filter (tied less c) (c :: l))) as I.
      { apply filter_In. split; [now left|]. unfold tied. now rewrite Hirr. }
      rewrite E in I. apply filter_In in I. tauto. }
    assert (T : tied less a b = true).
    { pose proof (M _ _ _ (F a)) as Ia. pose proof (M _ _ _ (eq_sym (F b))) as Ib.
      unfold tied. destruct Ia as [->|Ia]; [now rewrite Hirr|]. destruct Ib as [<-|Ib]; [now rewrite Hirr|].
      now rewrite (F1 _ Ib), (F2 _ Ia). }
    assert (a = b) as ->.
    { specialize (F a). cbn in F. unfold tied in F at 1. rewrite Hirr in F. cbn in F.
      rewrite T in F. now injection F. }
    f_equal. apply IH; auto. intros x. specialize (F x). cbn in F. destruct (tied less x b); [now injection F|exact F].
Qed.

Theorem stable_sort_unique : forall (A : Type) (less : A -> A -> bool) l l', strict_weak less ->
  stably_sorted less l l' -> stable_sort less l = Some l'.
Proof.
  intros A less l l' H (P & S1 & F1). destruct (stable_sort_ok less H l) as (l2 & E & (P2 & S2 & F2)).
  rewrite E. f_equal. apply (sorted_unique less H); auto. intros x. rewrite F1, F2. reflexivity.
Qed.

Example stable_sort_ex :
  strict_weak (fun a b : nat * nat => fst a <? fst b) /\
  stable_sort (fun a b : nat * nat => fst a <? fst b) [(3, 0); (1, 1); (3, 2); (2, 3); (1, 4); (0, 5)] =
    Some [(0, 5); (1, 1); (1, 4); (2, 3); (3, 0); (3, 2)].
Proof.
  split; [|reflexivity]. unfold strict_weak. repeat split; intros.
  - apply Nat.ltb_irrefl.
  - apply Nat.ltb_lt in H, H0. apply Nat.ltb_lt. lia.
  - apply Nat.ltb_ge in H, H0. apply Nat.ltb_ge. lia.
Qed.

Print Assumptions stable_sort_exact.
Print Assumptions stable_sort_unique.
