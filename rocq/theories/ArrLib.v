(* Small array library used by the models: arrays are lists, out-of-bounds
   accesses are None (undefined behaviour). *)
From Coq Require Import List Arith Lia.
Import ListNotations.

Definition obind {A B} (m : option A) (f : A -> option B) : option B :=
  match m with Some x => f x | None => None end.
Notation "'let?' x := m 'in' k" := (obind m (fun x => k))
  (at level 200, x pattern, m at level 100, k at level 200, right associativity).

Fixpoint set_nth {A} (l : list A) (n : nat) (x : A) : option (list A) :=
  match l, n with
  | [], _ => None
  | _ :: l, O => Some (x :: l)
  | y :: l, S n => let? l' := set_nth l n x in Some (y :: l')
  end.

Lemma set_nth_some {A} (l : list A) n x : n < length l ->
  set_nth l n x = Some (firstn n l ++ x :: skipn (S n) l).
Proof.
  revert n. induction l as [|y l IH]; intros n Hn; [cbn in Hn; lia|].
  destruct n; [reflexivity|]. cbn in Hn. cbn [set_nth]. rewrite IH by lia. reflexivity.
Qed.

Lemma set_nth_none {A} (l : list A) n x : length l <= n -> set_nth l n x = None.
Proof.
  revert n. induction l as [|y l IH]; intros n Hn; [destruct n; reflexivity|].
  destruct n; cbn in Hn; [lia|]. cbn. now rewrite IH by lia.
Qed.

Lemma set_nth_inv {A} (l l' : list A) n x : set_nth l n x = Some l' ->
  n < length l /\ l' = firstn n l ++ x :: skipn (S n) l.
Proof.
  intros H. destruct (Nat.lt_ge_cases n (length l)) as [Hn|Hn].
  - rewrite set_nth_some in H by assumption. now inversion H.
  - now rewrite set_nth_none in H.
Qed.

Lemma set_nth_length {A} (l l' : list A) n x : set_nth l n x = Some l' -> length l' = length l.
Proof.
  intros H. apply set_nth_inv in H. destruct H as [Hn ->].
  rewrite app_length. cbn [length]. rewrite firstn_length, skipn_length. lia.
Qed.

Lemma nth_error_set_nth {A} (l l' : list A) n x i : set_nth l n x = Some l' ->
  nth_error l' i = if Nat.eqb i n then Some x else nth_error l i.
Proof.
  revert l' n i. induction l as [|y l IH]; intros l' n i H; [destruct n; discriminate|].
  destruct n; cbn in H.
  - inversion H; subst. destruct i; reflexivity.
  - destruct (set_nth l n x) as [l2|] eqn:E; [|discriminate]. inversion H; subst.
    destruct i; [reflexivity|]. cbn. now apply IH.
Qed.

Lemma set_nth_app {A} (l1 l2 : list A) y x : set_nth (l1 ++ y :: l2) (length l1) x = Some (l1 ++ x :: l2).
Proof. induction l1; cbn; [reflexivity|]. now rewrite IHl1. Qed.
