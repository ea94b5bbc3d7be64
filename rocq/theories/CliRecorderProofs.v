(* The recorder: the loop as recursion over syntax trees, and the structures that it makes. *)
From Coq Require Import List Arith Bool Lia.
From Verif Require Import CliPatternModel CliPatternSpec CliTreeProofs CliSpecModel CliRecorderModel CliRecorderSpec CliAmbigProofs CliValueProofs CliSpecProofs.
Import ListNotations.

(* ---- the loop as recursion ---- *)

Section Run.
  Variable pattern_index : nat.

  Definition with_spec (x : rstate) (s : spec) : rstate :=
    Rstate (x_levels x) (x_seqs x) (x_elems x) (x_level x) (x_next_pos x) (x_st x) s.

  Definition run_leaf (l : leaf) (x : rstate) : presult rstate :=
    match l with
    | LKeyword t => let (s, i) := ensure_keyword (x_spec x) t in stage_symbol (with_spec x s) (Psym s_keyword i) false
    | LShort t => stage_option x pattern_index t false
    | LLong t => stage_option x pattern_index t true
    | LSlot _ => stage_symbol x (Psym s_value_slot 0) true
    end.

  Definition finish_opt (x : rstate) : presult rstate :=
    match x_level x with
    | LSeq _ np nul rep =>
      if nul then ambiguity opt_nullable
      else let* (x, i) := close_seq x in stage_elem x t_opt true true rep (np =? 0) i
    | LAlt _ _ _ _ _ _ => PBad
    end.

  Definition finish_rep (x : rstate) : presult rstate :=
    match x_level x with
    | LSeq _ np nul rep =>
      if nul then ambiguity rep_nullable
      else if rep then ambiguity rep_repeating
      else let* (x, i) := close_seq x in stage_elem x t_rep true false true (np =? 0) i
    | LAlt _ _ _ _ _ _ => PBad
    end.

  Definition finish_alt (x : rstate) : presult rstate :=
    let* x := close_branch x in
    match x_level x with
    | LAlt _ _ nul rep hasp mult =>
      if mult then ambiguity alt_nullable
      else let* (x, i) := close_alt x in stage_elem x t_alt true nul rep (negb hasp) i
    | LSeq _ _ _ _ => PBad
    end.

  Fixpoint run (t : ptree) (in_alt : bool) (x : rstate) : presult rstate :=
    match t with
    | PLeaf l => run_leaf l x
    | POpt a => let* x := run a false (open_seq x) in finish_opt x
    | PRep a => let* x := run a false (open_seq x) in finish_rep x
    | PJux a b => let* x := run a false x in run b false x
    | PAlt a b =>
      let* x := run a true (if in_alt then x else open_seq (open_alt x)) in
      let* x := close_branch x in
      let* x := run b true (open_seq x) in
      if in_alt then POk x else finish_alt x
    end.

  Fixpoint cost (t : ptree) : nat :=
    match t with
    | PLeaf _ => 1
    | POpt a | PRep a => 1 + (cost a + 1)
    | PJux a b | PAlt a b => 1 + (cost a + (1 + (cost b + 1)))
    end.

  Lemma pbind_assoc {A B C} (m : presult A) (f : A -> presult B) (g : B -> presult C) :
    pbind (pbind m f) g = pbind m (fun a => pbind (f a) g).
  Proof. now destruct m. Qed.
  Lemma pbind_ext {A B} (m : presult A) (f g : A -> presult B) : (forall a, f a = g a) -> pbind m f = pbind m g.
  Proof. intros H. destruct m; cbn; auto. Qed.

  Variable nodes : list node.
  Notation loop := (record_loop nodes pattern_index).

  Lemma loop_run t : forall i, rep_node nodes i t -> exists nd, nth_error nodes i = Some nd /\ forall parent fuel stack x,
    loop (cost t + fuel) (Node1 (Rframe parent nd false)) stack x =
    let* x := run t (is_alternatives parent) x in loop fuel Node2 stack x.
  Proof.
    induction t as [l|a IH|a IH|a IHa b IHb|a IHa b IHb]; intros i R.
    - inversion R as [? ? r1 r2 E| | | |]; subst. eexists. split; [exact E|]. intros parent fuel stack x.
      cbn [cost plus run record_loop rf_node nd_type nd_lexeme].
      destruct l as [t|t|t|t]; cbn [leaf_type leaf_lexeme run_leaf].
      + now destruct (ensure_keyword (x_spec x) t) as [s k].
      + reflexivity.
      + reflexivity.
      + reflexivity.
    - inversion R as [|? j r y ? E Ra| | |]; subst. destruct (IH j Ra) as (nd & En & H). eexists. split; [exact E|]. intros parent fuel stack x.
      replace (cost (POpt a) + fuel) with (S (cost a + S fuel)) by (cbn [cost]; lia).
      cbn [record_loop rf_node nd_type nd_left run]. unfold enter_node. rewrite En. cbn [pget pbind rf_node nd_type]. rewrite H. cbn [is_alternatives].
      rewrite pbind_assoc. apply pbind_ext. intros x1. cbn [record_loop rf_node nd_type]. unfold finish_opt.
      destruct (x_level x1) as [off np nul rep|]; [|reflexivity]. destruct nul; [reflexivity|]. rewrite pbind_assoc. apply pbind_ext. intros [x2 k]. reflexivity.
    - inversion R as [| |? j r y ? E Ra| |]; subst. destruct (IH j Ra) as (nd & En & H). eexists. split; [exact E|]. intros parent fuel stack x.
      replace (cost (PRep a) + fuel) with (S (cost a + S fuel)) by (cbn [cost]; lia).
      cbn [record_loop rf_node nd_type nd_left run]. unfold enter_node. rewrite En. cbn [pget pbind rf_node nd_type]. rewrite H. cbn [is_alternatives].
      rewrite pbind_assoc. apply pbind_ext. intros x1. cbn [record_loop rf_node nd_type]. unfold finish_rep.
      destruct (x_level x1) as [off np nul rep|]; [|reflexivity]. destruct nul; [reflexivity|]. destruct rep; [reflexivity|].
      rewrite pbind_assoc. apply pbind_ext. intros [x2 k]. reflexivity.
    - inversion R as [| | |? j k y ? ? E Ra Rb|]; subst. destruct (IHa j Ra) as (nd & En & H), (IHb k Rb) as (nd' & En' & H').
      eexists. split; [exact E|]. intros parent fuel stack x.
      replace (cost (PJux a b) + fuel) with (S (cost a + S (cost b + S fuel))) by (cbn [cost]; lia).
      cbn [record_loop rf_node nd_type nd_left run]. unfold enter_node. rewrite En. cbn [pget pbind rf_node nd_type]. rewrite H. cbn [is_alternatives].
      rewrite pbind_assoc. apply pbind_ext. intros x1. cbn [record_loop rf_node nd_type rf_right nd_right rf_parent]. unfold enter_node. cbn [rf_node nd_right]. rewrite En'. cbn [pget pbind rf_node nd_type].
      rewrite H'. apply pbind_ext. intros x2. reflexivity.
    - inversion R as [| | | |? j k y ? ? E Ra Rb]; subst. destruct (IHa j Ra) as (nd & En & H), (IHb k Rb) as (nd' & En' & H').
      eexists. split; [exact E|]. intros parent fuel stack x.
      replace (cost (PAlt a b) + fuel) with (S (cost a + S (cost b + S fuel))) by (cbn [cost]; lia).
      cbn [record_loop rf_node nd_type nd_left run rf_parent]. unfold enter_node. rewrite En. cbn [pget pbind rf_node nd_type]. rewrite H.
      replace (if negb (is_alternatives parent) then open_seq (open_alt x) else x) with (if is_alternatives parent then x else open_seq (open_alt x))
        by now destruct (is_alternatives parent).
      rewrite pbind_assoc. apply pbind_ext. intros x1. cbn [record_loop rf_node nd_type rf_right nd_right rf_parent].
      rewrite pbind_assoc. apply pbind_ext. intros x2. unfold enter_node. cbn [rf_node nd_right]. rewrite En'. cbn [pget pbind rf_node nd_type].
      rewrite H', pbind_assoc. apply pbind_ext. intros x3. cbn [record_loop rf_node nd_type rf_right rf_parent].
      destruct (is_alternatives parent); cbn [negb]; [reflexivity|]. unfold finish_alt. rewrite pbind_assoc. apply pbind_ext. intros x4.
      destruct (x_level x4) as [|soff nsi nul rep hasp mult]; [reflexivity|]. destruct mult; [reflexivity|]. rewrite pbind_assoc. apply pbind_ext. intros [x5 n]. reflexivity.
  Qed.
End Run.
