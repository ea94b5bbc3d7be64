(* Proofs about core::stable_sort *)
From Coq Require Import List Bool Arith Lia Sorting.Sorted Sorting.Permutation.
From Verif Require Import ArrLib StableSortModel StableSortSpec.
Import ListNotations.

Section Sort.
Context {A : Type} (less : A -> A -> bool).

Lemma nth_error_mid (P : list A) x R : nth_error (P ++ x :: R) (length P) = Some x.
Proof. rewrite nth_error_app2 by lia. now rewrite Nat.sub_diag. Qed.

Lemma shift_ok (Q : list A) : forall fuel P x R, Q <> [] -> length Q <= fuel ->
  shift fuel (P ++ Q ++ x :: R) (length P + length Q) (length P) = Some (P ++ hd x Q :: Q ++ R).
Proof.
  induction Q as [|q Q IH] using rev_ind; intros fuel P x R HQ Hf; [congruence|].
  rewrite app_length in *. cbn [length] in *. destruct fuel as [|fuel]; [lia|].
  replace (length P + (length Q + 1)) with (S (length P + length Q)) by lia. cbn [shift].
  rewrite <- app_assoc. cbn [app].
  rewrite app_assoc. rewrite <- app_length. rewrite nth_error_mid. cbn [obind].
  replace (set_nth ((P ++ Q) ++ q :: x :: R) (S (length (P ++ Q))) q) with (Some ((P ++ Q) ++ q :: q :: R)).
  2:{ symmetry. change ((P ++ Q) ++ q :: x :: R) with ((P ++ Q) ++ [q] ++ x :: R). rewrite app_assoc.
      replace (S (length (P ++ Q))) with (length ((P ++ Q) ++ [q])) by (rewrite (app_length (P ++ Q)); cbn; lia).
      rewrite set_nth_app. now rewrite <- app_assoc. }
  cbn [obind]. rewrite app_length. destruct Q as [|q0 Q'].
  - cbn [length app hd]. rewrite Nat.add_0_r, Nat.eqb_refl. now rewrite app_nil_r.
  - replace (length P + length (q0 :: Q') =? length P) with false by (symmetry; apply Nat.eqb_neq; cbn; lia).
    rewrite <- app_assoc. rewrite (IH fuel P q (q :: R)); [|discriminate|lia].
    cbn [hd app]. rewrite <- app_assoc. reflexivity.
Qed.

(* insertion before the first element that must come after *)
Fixpoint ins (x : A) (l : list A) : list A :=
  match l with
  | [] => [x]
  | y :: l => if less x y then x :: y :: l else y :: ins x l
  end.

Lemma inner_ok Q : forall fuel P x R, length Q < fuel ->
  inner less fuel (P ++ Q ++ x :: R) (length P + length Q) (length P) = Some (P ++ ins x Q ++ R).
Proof.
  induction Q as [|y Q IH]; intros fuel P x R Hf; (destruct fuel as [|fuel]; [cbn in Hf; lia|]); cbn [inner].
  - cbn [length]. rewrite Nat.add_0_r, Nat.eqb_refl. reflexivity.
  - replace (length P =? length P + length (y :: Q)) with false by (symmetry; apply Nat.eqb_neq; cbn; lia).
    rewrite (app_assoc P (y :: Q)). rewrite <- app_length at 1. rewrite nth_error_mid. cbn [obind].
    rewrite <- (app_assoc P (y :: Q)). cbn [app]. rewrite nth_error_mid. cbn [obind ins].
    destruct (less x y) eqn:E; cbn [negb].
    + change (P ++ y :: Q ++ x :: R) with (P ++ (y :: Q) ++ x :: R). rewrite shift_ok by (discriminate || (cbn; lia)).
      cbn [obind hd]. rewrite set_nth_app. reflexivity.
    + replace (length P + length (y :: Q)) with (length (P ++ [y]) + length Q) by (rewrite app_length; cbn; lia).
      replace (S (length P)) with (length (P ++ [y])) by (rewrite app_length; cbn; lia).
      change (P ++ y :: Q ++ x :: R) with (P ++ [y] ++ Q ++ x :: R). rewrite app_assoc. rewrite IH by (cbn in Hf; lia).
      now rewrite <- app_assoc.
Qed.

Lemma ins_length x l : length (ins x l) = S (length l).
Proof. induction l as [|y l IH]; cbn; [reflexivity|]. destruct (less x y); cbn; lia. Qed.

Lemma outer_ok R : forall fuel L, length R < fuel ->
  outer less fuel (L ++ R) (length L) = Some (fold_left (fun l x => ins x l) R L).
Proof.
  induction R as [|x R IH]; intros fuel L Hf; (destruct fuel as [|fuel]; [cbn in Hf; lia|]); cbn [outer fold_left].
  - rewrite app_nil_r, Nat.eqb_refl. reflexivity.
  - rewrite app_length. replace (length L =? length L + length (x :: R)) with false by (symmetry; apply Nat.eqb_neq; cbn; lia).
    pose proof (inner_ok L (S (length L)) [] x R ltac:(lia)) as H. cbn [app length plus] in H. rewrite H. cbn [obind].
    rewrite <- (ins_length x L). apply IH. cbn in Hf. lia.
Qed.

Lemma ins_perm x l : Permutation (x :: l) (ins x l).
Proof.
  induction l as [|y l IH]; cbn; [reflexivity|]. destruct (less x y); [reflexivity|].
  rewrite perm_swap. now constructor.
Qed.

Hypothesis Hw : strict_weak less.

Lemma ins_sorted x l : StronglySorted (fun x y => less y x = false) l -> StronglySorted (fun x y => less y x = false) (ins x l).
Proof.
  destruct Hw as (Hirr & Htr & Hneg). intros H. induction H as [|y l H IH F]; cbn [ins]; [constructor; constructor|].
  destruct (less x y) eqn:E.
  - constructor; [now constructor|]. constructor.
    + destruct (less y x) eqn:E2; [|reflexivity]. rewrite <- (Hirr x). symmetry. eauto.
    + rewrite Forall_forall in *. intros z Hz. specialize (F z Hz).
      destruct (less z x) eqn:E2; [|reflexivity]. rewrite <- F. symmetry. eauto.
  - constructor; [exact IH|]. rewrite Forall_forall in *. intros z Hz.
    apply (Permutation_in z (Permutation_sym (ins_perm x l))) in Hz. destruct Hz as [<-|Hz]; [exact E|auto].
Qed.

Lemma filter_none (f : A -> bool) l : (forall y, In y l -> f y = false) -> filter f l = [].
Proof. induction l as [|y l IH]; intros H; [reflexivity|]. cbn. rewrite (H y) by now left. apply IH. intros; apply H; now right. Qed.

Lemma ins_stable x l z : StronglySorted (fun x y => less y x = false) l ->
  filter (tied less z) (ins x l) = filter (tied less z) (l ++ [x]).
Proof.
  destruct Hw as (Hirr & Htr & Hneg). intros H. induction H as [|y l H IH F]; [reflexivity|]. cbn [ins app].
  destruct (less x y) eqn:E.
  - destruct (tied less z x) eqn:T.
    + (* no element of y :: l is tied with z *)
      assert (Hno : forall u, In u (y :: l) -> tied less z u = false).
      { intros u Hu. unfold tied in *. apply andb_true_iff in T. destruct T as [T1 T2]. apply negb_true_iff in T1, T2.
        assert (Hux : less u y = false) by (destruct Hu as [<-|Hu]; [apply Hirr|rewrite Forall_forall in F; now apply F]).
        destruct (less z u) eqn:Ezu; [reflexivity|]. cbn [negb andb]. exfalso.
        (* x <= z, z >= u, u >= y so not x < y *)
        assert (less x y = false); [|congruence]. destruct (less x z) eqn:Exz; [congruence|].
        apply (Hneg x z y); [exact Exz|]. apply (Hneg z u y); assumption. }
      cbn [filter]. rewrite T. rewrite (Hno y) by now left. rewrite (filter_none _ l) by (intros; apply Hno; now right).
      rewrite filter_app. rewrite (filter_none _ l) by (intros; apply Hno; now right). cbn [filter]. now rewrite T.
    + cbn [filter]. rewrite T. rewrite filter_app. cbn [filter]. rewrite T, app_nil_r. reflexivity.
  - cbn [filter]. destruct (tied less z y); rewrite IH; reflexivity.
Qed.

Lemma fold_ins_ok R : forall L L0, stably_sorted less L0 L ->
  stably_sorted less (L0 ++ R) (fold_left (fun l x => ins x l) R L).
Proof.
  induction R as [|x R IH]; intros L L0 H; cbn [fold_left].
  - now rewrite app_nil_r.
  - replace (L0 ++ x :: R) with ((L0 ++ [x]) ++ R) by now rewrite <- app_assoc. apply IH.
    destruct H as (Hp & Hs & Ht). split; [|split].
    + rewrite <- ins_perm. rewrite <- Permutation_cons_append. now constructor.
    + now apply ins_sorted.
    + intros z. rewrite ins_stable by assumption. rewrite !filter_app. now rewrite Ht.
Qed.

Lemma stable_sort_ok l : exists l', stable_sort less l = Some l' /\ stably_sorted less l l'.
Proof.
  exists (fold_left (fun l x => ins x l) l []). split.
  - unfold stable_sort. apply (outer_ok l (S (length l)) []). lia.
  - apply (fold_ins_ok l [] []). split; [constructor|]. split; [constructor|reflexivity].
Qed.

End Sort.
