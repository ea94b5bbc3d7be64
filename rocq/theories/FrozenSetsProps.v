(* C34: FrozenSets *)
From Coq Require Import List Arith Bool Lia Sorted Permutation.
From Verif Require Import ArrLib FlatMapSpec FlatMapProofs FrozenSetsModel FrozenSetsSpec FrozenSetsProofs.
Import ListNotations.

(* The full claim: every well-formed history (without the restriction
   not_equal_sets) leaves every identifier denoting the right set.  It is
   refuted below; this theorem covers all histories that never unite two equal
   sets through unite(Ident, Ident) or unite_unordered. *)
Theorem frozen_sets_history_partial :
  forall (T : Type) (lt : T -> T -> bool) (default : T) (sort : list T -> list T) (ops : list fs_op),
  strict_weak_order lt -> sorts lt sort -> history_ok lt [set_empty] ops ->
  exists elems ids sets,
    fs_run lt default sort ([], [(0, 0)]) ops = Some (elems, ids) /\
    spec_run lt [set_empty] ops = Some sets /\
    implements lt elems ids sets.
Proof.
  intros T lt default sort ops HO HS Hh.
  destruct (run_good lt default sort HO HS ops [] [(0, 0)] [set_empty]) as (e & i & s & H1 & H2 & H3 & _).
  - constructor; [|constructor]. exists []. split; [reflexivity|]. split; [constructor|reflexivity].
  - assumption.
  - exists e, i, s. auto.
Qed.

(* At every point of such a history: one more operation extends the vector,
   issues one new identifier and leaves the sets of all earlier identifiers. *)
Theorem frozen_sets_step_partial :
  forall (T : Type) (lt : T -> T -> bool) (default : T) (sort : list T -> list T) elems ids sets op s,
  strict_weak_order lt -> sorts lt sort -> implements lt elems ids sets ->
  ordered_input lt op -> not_equal_sets lt sets op -> spec_result lt sets op = Some s ->
  exists elems' i, fs_step lt default sort (elems, ids) op = Some (elems', ids ++ [i]) /\
    implements lt elems' (ids ++ [i]) (sets ++ [s]).
Proof.
  intros T lt default sort elems ids sets op s HO HS HI H1 H2 H3.
  destruct (step_good lt default sort HO HS elems ids sets op s HI H1 H2 H3) as (e & i2 & E & I & [i ->]).
  exists e, i. auto.
Qed.

(* insertion sort as a concrete std::sort *)
Fixpoint ins (x : nat) (l : list nat) : list nat :=
  match l with [] => [x] | y :: l' => if y <? x then y :: ins x l' else x :: l end.
Definition isort (l : list nat) : list nat := fold_right ins [] l.
Lemma ins_perm x l : Permutation (ins x l) (x :: l).
Proof.
  induction l as [|y l IH]; cbn [ins]; [reflexivity|]. destruct (y <? x); [|reflexivity].
  rewrite IH. apply perm_swap.
Qed.
Lemma isort_sorts : sorts Nat.ltb isort.
Proof.
  intros l. split.
  - induction l as [|x l IH]; cbn; [reflexivity|]. rewrite ins_perm. now constructor.
  - induction l as [|x l IH]; [constructor|]. change (isort (x :: l)) with (ins x (isort l)).
    induction IH as [|y m Hm IHm Hf]; cbn [ins]; [constructor; constructor|].
    destruct (Nat.ltb_spec y x).
    + constructor; [assumption|]. apply Forall_forall. intros z Hz.
      apply (Permutation_in _ (ins_perm x m)) in Hz. destruct Hz as [<-|Hz].
      * apply Nat.ltb_ge. lia.
      * rewrite Forall_forall in Hf. auto.
    + constructor; [constructor; assumption|]. constructor; [apply Nat.ltb_ge; lia|].
      eapply Forall_impl; [|exact Hf]. intros z Hz. apply Nat.ltb_ge in Hz. apply Nat.ltb_ge. lia.
Qed.
Lemma nat_swo : strict_weak_order Nat.ltb.
Proof.
  split.
  - intros x. apply Nat.ltb_irrefl.
  - intros x y z. rewrite !Nat.ltb_lt. lia.
  - intros x y z. rewrite !Nat.ltb_lt. lia.
Qed.

Example frozen_sets_ex :
  let ops := [FsFreezeUnordered [3; 1; 3]; FsFreezeOrdered [2; 3]; FsUnite 1 2; FsUniteUnordered 3 [9; 2; 9]; FsUnite 1 4; FsUnite1 0 5] in
  history_ok Nat.ltb [set_empty] ops /\
  fs_run Nat.ltb 0 isort ([], [(0, 0)]) ops
  = Some ([1; 3; 2; 3; 1; 2; 3; 1; 2; 3; 9; 5],
          [(0, 0); (0, 2); (2, 4); (4, 7); (7, 11); (7, 11); (11, 12)]).
Proof.
  split; [|reflexivity]. cbn [history_ok ordered_input not_equal_sets spec_result nth_error app].
  repeat split; try exact I.
  - repeat constructor.
  - exists 1. discriminate.
  - exists 9. discriminate.
  - exists 9. discriminate.
Qed.
Print Assumptions frozen_sets_history_partial.
Print Assumptions frozen_sets_step_partial.

(* FINDING: uniting two equal sets destroys sets.  After
     a = freeze{1,2}, b = freeze{5}, c = freeze{1,2}, unite(a, c)
   the vector is empty: identifier b (and a, c and the returned identifier)
   refer to elements outside the vector. *)
Theorem frozen_sets_unite_refuted :
  exists (ops : list (@fs_op nat)) elems ids sets,
    Forall (ordered_input Nat.ltb) ops /\
    fs_run Nat.ltb 0 isort ([], [(0, 0)]) ops = Some (elems, ids) /\
    spec_run Nat.ltb [set_empty] ops = Some sets /\
    ~ implements Nat.ltb elems ids sets /\ elems = [].
Proof.
  exists [FsFreezeOrdered [1; 2]; FsFreeze1 5; FsFreezeOrdered [1; 2]; FsUnite 1 3].
  eexists. eexists. eexists. split; [repeat constructor|]. split; [vm_compute; reflexivity|].
  split; [cbn; reflexivity|]. split; [|reflexivity].
  unfold implements. intros H. inversion H as [|? ? ? ? _ H1]; subst.
  inversion H1 as [|? ? ? ? (l & Hl & _) _]; subst. discriminate Hl.
Qed.

(* FINDING: even uniting two empty sets wipes out all sets when the identifiers
   are default-constructed. *)
Theorem frozen_sets_unite_empty_refuted :
  fs_run Nat.ltb 0 isort ([], [(0, 0)]) [FsFreeze1 5; FsUnite 0 0] = Some ([], [(0, 0); (0, 1); (0, 0)]).
Proof. reflexivity. Qed.

(* FINDING: unite_unordered with the elements of an existing set overwrites that
   set and all later ones with default values. *)
Theorem frozen_sets_unite_unordered_refuted :
  exists (ops : list (@fs_op nat)) elems ids sets,
    Forall (ordered_input Nat.ltb) ops /\
    fs_run Nat.ltb 0 isort ([], [(0, 0)]) ops = Some (elems, ids) /\
    spec_run Nat.ltb [set_empty] ops = Some sets /\
    ~ implements Nat.ltb elems ids sets /\
    fs_get elems (0, 2) = Some [0; 0] /\ fs_get elems (2, 3) = Some [0].
Proof.
  exists [FsFreezeOrdered [1; 2]; FsFreeze1 5; FsUniteUnordered 1 [1; 2]].
  eexists. eexists. eexists. split; [repeat constructor|]. split; [vm_compute; reflexivity|].
  split; [cbn; reflexivity|]. split; [|split; reflexivity].
  unfold implements. intros H. inversion H as [|? ? ? ? _ H1]; subst.
  inversion H1 as [|? ? ? ? (l & Hl & _ & Hm) _]; subst. vm_compute in Hl. inversion Hl; subst l.
  specialize (Hm 1). discriminate Hm.
Qed.
Print Assumptions frozen_sets_unite_refuted.
Print Assumptions frozen_sets_unite_unordered_refuted.
