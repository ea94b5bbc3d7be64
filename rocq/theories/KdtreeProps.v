(* Theorems about k-d trees (src/archon/util/kdtree.hpp).  max_levels is a parameter of the
   model: it is the number of value bits of the difference type, and a range can therefore
   not have 2^max_levels points. *)
From Coq Require Import ZArith Bool List Permutation Lia.
From Verif Require Import KdtreeModel KdtreeSpec KdtreeProofs.
Import ListNotations.
Open Scope Z_scope.

(* ---- a std::nth_element for the concrete cases: a full sort ---- *)

Section Insertion.
  Variable A : Type.
  Variable lt : A -> A -> bool.
  Fixpoint insert (x : A) (l : list A) : list A :=
    match l with
    | [] => [x]
    | y :: l' => if lt y x then y :: insert x l' else x :: l
    end.
  Definition isort (l : list A) : list A := fold_right insert [] l.

  Inductive sorted : list A -> Prop :=
  | sorted_nil : sorted []
  | sorted_cons : forall x l, (forall y, In y l -> lt y x = false) -> sorted l -> sorted (x :: l).

  Lemma insert_perm x l : Permutation (x :: l) (insert x l).
  Proof.
    induction l as [|y l IH]; cbn [insert]; [reflexivity|]. destruct (lt y x); [|reflexivity].
    rewrite perm_swap. now constructor.
  Qed.

  Lemma isort_perm l : Permutation l (isort l).
  Proof. induction l as [|x l IH]; cbn; [reflexivity|]. rewrite <- insert_perm. now constructor. Qed.

  Lemma insert_sorted x l : strict_weak A lt -> sorted l -> sorted (insert x l).
  Proof.
    intros (W1 & W2 & W3) H. induction H as [|y l Hy H IH]; cbn [insert]; [constructor; [intros ? []|constructor]|].
    destruct (lt y x) eqn:E.
    - constructor; [|exact IH]. intros z Hz. apply (Permutation_in z (Permutation_sym (insert_perm x l))) in Hz.
      destruct Hz as [<-|Hz]; [|now apply Hy]. destruct (lt x y) eqn:E2; [|reflexivity].
      pose proof (W2 x y x E2 E). rewrite W1 in *. congruence.
    - constructor; [|constructor; assumption]. intros z [<-|Hz]; [exact E|]. specialize (Hy z Hz). exact (W3 z y x Hy E).
  Qed.

  Lemma isort_sorted l : strict_weak A lt -> sorted (isort l).
  Proof. intros W. induction l as [|x l IH]; cbn; [constructor|now apply insert_sorted]. Qed.

  Lemma sorted_nth l : strict_weak A lt -> sorted l -> forall i j p q, (i <= j)%nat -> nth_error l i = Some p ->
    nth_error l j = Some q -> lt q p = false.
  Proof.
    intros (W1 & _) H. induction H as [|x l Hx H IH]; intros i j p q Hij Hi Hj; [destruct i; discriminate|].
    destruct i as [|i], j as [|j]; cbn [nth_error] in *; try lia.
    - replace q with p by congruence. apply W1.
    - injection Hi as ->. apply Hx. now apply nth_error_In in Hj.
    - apply (IH i j); assumption || lia.
  Qed.
End Insertion.

Lemma isort_ok A : nth_element_ok A (fun lt _ l => isort A lt l).
Proof.
  intros lt n l W Hn. split; [apply isort_perm|]. intros i j p q Hij. apply (sorted_nth A lt); [exact W|now apply isort_sorted|lia].
Qed.

(* ---- C72: sorting ---- *)

(* With any std::nth_element that does what the standard requires, kdtree_sort() reorders the
   points into a balanced k-d tree.  It does not access the range outside of its bounds, and
   the stack of pending ranges does not overflow. *)
Theorem kdtree_sort_exact : forall (point : Type) (comp : point -> Z -> Z) k max_levels ne pts,
  1 <= k -> 0 <= max_levels -> nth_element_ok point ne -> Z.of_nat (length pts) < 2 ^ max_levels ->
  exists pts', kdtree_sort point comp k max_levels ne pts = Some pts' /\
    Permutation pts pts' /\ kd point comp k 0 pts'.
Proof. intros. now apply sort_ok. Qed.

Definition comp2 (p : Z * Z) (i : Z) : Z := if i =? 0 then fst p else snd p.
Definition pts7 := [(2, 3); (5, 4); (9, 6); (4, 7); (8, 1); (7, 2); (5, 5)].

(* seven points in the plane, with room for no more than two pending ranges *)
Example kdtree_sort_exact_case : kdtree_sort (Z * Z) comp2 2 3 (fun lt _ l => isort _ lt l) pts7 =
  Some [(2, 3); (5, 4); (4, 7); (5, 5); (8, 1); (7, 2); (9, 6)].
Proof. reflexivity. Qed.
Example kdtree_sort_exact_hyps : 1 <= 2 /\ 0 <= 3 /\ nth_element_ok (Z * Z) (fun lt _ l => isort _ lt l) /\
  Z.of_nat (length pts7) < 2 ^ 3.
Proof. split; [lia|]. split; [lia|]. split; [apply isort_ok|cbn; lia]. Qed.

(* ---- C73: finding the nearest point ---- *)

(* In a range that is a k-d tree, kdtree_find() finds a point nearest to the given one among
   all the points at a distance less than the specified one, and reports its distance.  It
   fails only when there is no such point. *)
Theorem kdtree_find_exact : forall (point : Type) (comp : point -> Z -> Z) k max_levels query pts max_dist,
  1 <= k -> 0 <= max_levels -> Z.of_nat (length query) = k -> kd point comp k 0 pts -> Z.of_nat (length pts) < 2 ^ max_levels ->
  (exists p, kdtree_find point comp k max_levels query pts max_dist = Some (Some (p, sqdist point comp query p)) /\
    In p pts /\ (forall q, In q pts -> sqdist point comp query p <= sqdist point comp query q) /\
    (forall m, max_dist = Some m -> sqdist point comp query p < m ^ 2)) \/
  (kdtree_find point comp k max_levels query pts max_dist = Some None /\
    forall q, In q pts -> exists m, max_dist = Some m /\ m ^ 2 <= sqdist point comp query q).
Proof.
  intros point comp k max_levels query pts max_dist Hk Hm Hq Hkd Hl.
  pose proof (find_ok point comp k max_levels Hk Hm query Hq pts max_dist Hkd Hl) as H.
  destruct (kdtree_find point comp k max_levels query pts max_dist) as [[[p d]|]|]; [left|right|contradiction].
  - destruct H as (H1 & -> & H2 & H3). exists p. auto.
  - auto.
Qed.

(* The two functions together: sort first, then find *)
Theorem kdtree_sort_find_exact : forall (point : Type) (comp : point -> Z -> Z) k max_levels ne query pts,
  1 <= k -> 0 <= max_levels -> nth_element_ok point ne -> Z.of_nat (length query) = k ->
  Z.of_nat (length pts) < 2 ^ max_levels -> pts <> [] ->
  exists pts' p, kdtree_sort point comp k max_levels ne pts = Some pts' /\
    kdtree_find point comp k max_levels query pts' None = Some (Some (p, sqdist point comp query p)) /\
    In p pts /\ (forall q, In q pts -> sqdist point comp query p <= sqdist point comp query q).
Proof.
  intros point comp k max_levels ne query pts Hk Hm Hne Hq Hl Hp.
  destruct (kdtree_sort_exact point comp k max_levels ne pts Hk Hm Hne Hl) as (pts' & E & P & Kd).
  assert (Hl' : Z.of_nat (length pts') < 2 ^ max_levels) by now rewrite <- (Permutation_length P).
  exists pts'. destruct (kdtree_find_exact point comp k max_levels query pts' None Hk Hm Hq Kd Hl')
    as [(p & F & I & M & _)|(_ & N)].
  - exists p. repeat split; try assumption.
    + now apply (Permutation_in p (Permutation_sym P)).
    + intros q Hi. apply M. now apply (Permutation_in q P).
  - exfalso. destruct pts as [|q pts]; [now apply Hp|].
    destruct (N q (Permutation_in q P (or_introl eq_refl))) as (m & D & _). discriminate.
Qed.

Definition sorted7 := [(2, 3); (5, 4); (4, 7); (5, 5); (8, 1); (7, 2); (9, 6)].

(* one in the range that is not visited first, one too far away *)
Example kdtree_find_exact_case :
  kdtree_find (Z * Z) comp2 2 3 [6; 6] sorted7 None = Some (Some ((5, 5), 2)) /\
  kdtree_find (Z * Z) comp2 2 3 [7; 0] sorted7 None = Some (Some ((8, 1), 2)) /\
  kdtree_find (Z * Z) comp2 2 3 [3; 1] sorted7 None = Some (Some ((2, 3), 5)) /\
  kdtree_find (Z * Z) comp2 2 3 [3; 1] sorted7 (Some 3) = Some (Some ((2, 3), 5)) /\
  kdtree_find (Z * Z) comp2 2 3 [3; 1] sorted7 (Some 2) = Some None.
Proof. repeat split. Qed.
Example kdtree_find_exact_hyps : kd (Z * Z) comp2 2 0 sorted7.
Proof.
  destruct (kdtree_sort_exact (Z * Z) comp2 2 3 (fun lt _ l => isort _ lt l) pts7) as (l & E & _ & Kd); try (cbn; lia).
  - apply isort_ok.
  - rewrite kdtree_sort_exact_case in E. injection E as <-. exact Kd.
Qed.

(* ---- the documented reading of max_dist is that of a distance; a negative one is squared ---- *)

(* No point is at a distance less than a negative one, and yet one is found *)
Theorem kdtree_find_negative_max_dist_refuted :
  exists (pts : list (Z * Z)) query max_dist p,
    kd (Z * Z) comp2 2 0 pts /\ max_dist < 0 /\
    kdtree_find (Z * Z) comp2 2 63 query pts (Some max_dist) = Some (Some p).
Proof.
  exists sorted7, [3; 1], (-3), ((2, 3), 5). split; [exact kdtree_find_exact_hyps|]. split; [lia|]. reflexivity.
Qed.

Print Assumptions kdtree_sort_exact.
Print Assumptions kdtree_find_exact.
Print Assumptions kdtree_sort_find_exact.
Print Assumptions kdtree_find_negative_max_dist_refuted.
