(* C29, C30: flat maps and multimaps. *)
From Coq Require Import List Arith Bool Lia Sorted Permutation ZArith.
From Verif Require Import ArrLib FlatMapModel FlatMapSpec FlatMapProofs.
Import ListNotations.

Definition olist {X} (o : option X) : list X := match o with Some x => [x] | None => [] end.

Section M.
Context {K V : Type} (lt : K -> K -> bool) (default : V) (HO : strict_weak_order lt).


Definition map_rel (es : list (K * V)) (m : @map_spec K V) : Prop :=
  ssorted lt fst es /\ length es = ms_size m /\
  forall k, filter (fun e => eqv lt k (fst e)) es = olist (ms_get m k).

Lemma rel_split es m k : map_rel es m -> exists A B C, es = A ++ B ++ C /\
  Forall (below lt fst k) A /\ Forall (at_ lt fst k) B /\ Forall (above lt fst k) C /\ B = olist (ms_get m k).
Proof.
  intros (Hs & _ & Hf). destruct (three_split lt fst HO es k) as (A & B & C & -> & HA & HB & HC).
  { now apply ssorted_wsorted. }
  exists A, B, C. repeat split; try assumption. rewrite <- (Hf k). symmetry. now apply split_filter.
Qed.

Lemma filter_eqv_insert (A C : list (K * V)) (e : K * V) k' :
  Forall (below lt fst (fst e)) A -> Forall (above lt fst (fst e)) C ->
  filter (fun x => eqv lt k' (fst x)) (A ++ e :: C) =
  if eqv lt (fst e) k' then [e] else filter (fun x => eqv lt k' (fst x)) (A ++ C).
Proof.
  intros HA HC. rewrite (eqv_sym _ (fst e) k').
  rewrite !filter_app. cbn [filter].
  destruct (eqv lt k' (fst e)) eqn:Q; [|reflexivity].
  rewrite (filter_none _ A), (filter_none _ C); [reflexivity| |].
  - eapply Forall_impl; [|exact HC]. intros x Hx. rewrite (eqv_trans_l lt HO _ _ _ Q). apply (above_bools lt fst HO), Hx.
  - eapply Forall_impl; [|exact HA]. intros x Hx. rewrite (eqv_trans_l lt HO _ _ _ Q). apply (below_bools lt fst HO), Hx.
Qed.

Lemma filter_eqv_remove (A B C : list (K * V)) k k' :
  Forall (below lt fst k) A -> Forall (at_ lt fst k) B -> Forall (above lt fst k) C ->
  filter (fun x => eqv lt k' (fst x)) (A ++ C) =
  if eqv lt k k' then [] else filter (fun x => eqv lt k' (fst x)) (A ++ B ++ C).
Proof.
  intros HA HB HC. rewrite !filter_app. destruct (eqv lt k k') eqn:Q.
  - rewrite (filter_none _ A), (filter_none _ C); [reflexivity| |].
    + eapply Forall_impl; [|exact HC]. intros x Hx. rewrite <- (eqv_trans_l lt HO _ _ _ Q). apply (above_bools lt fst HO), Hx.
    + eapply Forall_impl; [|exact HA]. intros x Hx. rewrite <- (eqv_trans_l lt HO _ _ _ Q). apply (below_bools lt fst HO), Hx.
  - rewrite (filter_none _ B); [reflexivity|].
    eapply Forall_impl; [|exact HB]. intros x Hx. unfold at_ in Hx.
    rewrite eqv_sym, <- (eqv_trans_l lt HO _ _ _ Hx). assumption.
Qed.

Lemma rel_put_new A C m k v : map_rel (A ++ C) m ->
  Forall (below lt fst k) A -> Forall (above lt fst k) C -> ms_get m k = None ->
  map_rel (A ++ (k, v) :: C) (ms_put lt m k (k, v)).
Proof.
  intros (Hs & Hn & Hf) HA HC Hk. split; [|split].
  - apply (ssorted_insert lt fst); assumption.
  - unfold ms_put, ms_has. rewrite Hk. cbn [ms_size]. rewrite app_length in *. cbn [length]. lia.
  - intros k'. rewrite (filter_eqv_insert A C (k, v) k') by assumption. unfold ms_put. cbn [ms_get fst].
    destruct (eqv lt k k'); [reflexivity|apply Hf].
Qed.

Lemma rel_put_old A e C m k v : map_rel (A ++ e :: C) m ->
  Forall (below lt fst k) A -> at_ lt fst k e -> Forall (above lt fst k) C -> ms_get m k = Some e ->
  map_rel (A ++ (fst e, v) :: C) (ms_put lt m k (fst e, v)).
Proof.
  intros (Hs & Hn & Hf) HA He HC Hk.
  assert (HA' : Forall (below lt fst (fst e)) A).
  { eapply Forall_impl; [|exact HA]. intros x Hx. unfold below in *. now rewrite <- (lt_eqv_r lt HO _ _ _ He). }
  assert (HC' : Forall (above lt fst (fst e)) C).
  { eapply Forall_impl; [|exact HC]. intros x Hx. unfold above in *. now rewrite <- (lt_eqv_l lt HO _ _ _ He). }
  assert (Hs' : ssorted lt fst (A ++ C)) by (apply (ssorted_remove lt fst A [e] C); exact Hs).
  split; [|split].
  - apply (ssorted_insert lt fst A C (fst e, v)); assumption.
  - unfold ms_put, ms_has. rewrite Hk. cbn [ms_size]. rewrite app_length in *. exact Hn.
  - intros k'. rewrite (filter_eqv_insert A C (fst e, v) k') by assumption. unfold ms_put. cbn [ms_get fst].
    unfold at_ in He. rewrite (eqv_trans_l lt HO _ _ _ He).
    destruct (eqv lt (fst e) k') eqn:Q; [reflexivity|].
    rewrite <- Hf. rewrite (filter_eqv_insert A C e k') by assumption. now rewrite Q.
Qed.

Lemma step_rel es m op : map_rel es m ->
  exists es', fm_step lt default es op = Some (es', snd (ms_step lt default m op)) /\
              map_rel es' (fst (ms_step lt default m op)).
Proof.
  intros HR.
  destruct op as [k v|k v|k|k| |k|k|k|k]; unfold fm_step, ms_step.
  5: { exists []. split; [reflexivity|]. split; [constructor|]. split; [reflexivity|]. intros k. reflexivity. }
  all: destruct (rel_split es m k HR) as (A & B & C & -> & HA & HB & HC & HBm).
  - (* insert *)
    rewrite (fm_insert_split lt fst HO A B C (k, v)) by assumption.
    destruct (ms_get m k) as [e|] eqn:G; cbn [olist] in HBm; subst B; cbn [obind fst snd app].
    + rewrite nth_error_app2, Nat.sub_diag by lia. cbn [nth_error obind]. eexists. split; [reflexivity|assumption].
    + rewrite nth_error_app2, Nat.sub_diag by lia. cbn [nth_error obind]. eexists. split; [reflexivity|].
      apply rel_put_new; assumption.
  - (* assign *)
    unfold fm_subscript_assign.
    rewrite (fm_insert_split lt fst HO A B C (k, default)) by assumption.
    destruct (ms_get m k) as [e|] eqn:G; cbn [olist] in HBm; subst B; cbn [obind fst snd app].
    + rewrite nth_error_app2, Nat.sub_diag by lia. cbn [nth_error obind]. rewrite set_nth_app. cbn [obind].
      eexists. split; [reflexivity|]. apply rel_put_old with (A := A) (C := C); try assumption. now inversion HB.
    + rewrite nth_error_app2, Nat.sub_diag by lia. cbn [nth_error obind fst]. rewrite set_nth_app. cbn [obind].
      eexists. split; [reflexivity|]. apply rel_put_new; assumption.
  - (* subscript *)
    unfold fm_subscript.
    rewrite (fm_insert_split lt fst HO A B C (k, default)) by assumption.
    destruct (ms_get m k) as [e|] eqn:G; cbn [olist] in HBm; subst B; cbn [obind fst snd app].
    + rewrite nth_error_app2, Nat.sub_diag by lia. cbn [nth_error obind fst snd]. eexists. split; [reflexivity|assumption].
    + rewrite nth_error_app2, Nat.sub_diag by lia. cbn [nth_error obind fst snd]. eexists. split; [reflexivity|].
      apply rel_put_new; assumption.
  - (* erase *)
    rewrite (fm_erase_split lt fst HO k A B C) by assumption. cbn [obind fst snd].
    exists (A ++ C). split.
    + do 3 f_equal. unfold ms_has. subst B. destruct (ms_get m k); reflexivity.
    + destruct HR as (Hs & Hn & Hf). split; [|split].
      * now apply ssorted_remove in Hs.
      * unfold ms_del, ms_has. cbn [ms_size]. rewrite !app_length in *. subst B. destruct (ms_get m k); cbn [olist length] in *; lia.
      * intros k'. rewrite (filter_eqv_remove A B C k k') by assumption. rewrite Hf. unfold ms_del. cbn [ms_get].
        destruct (eqv lt k k'); reflexivity.
  - rewrite (fm_lookup_split lt fst HO k A B C) by assumption. cbn [obind].
    eexists; split; [|eassumption]. subst B. cbn [snd]. destruct (ms_get m k); reflexivity.
  - rewrite (fm_contains_split lt fst HO k A B C) by assumption. cbn [obind].
    eexists; split; [|eassumption]. subst B. cbn [snd]. unfold ms_has. destruct (ms_get m k); reflexivity.
  - unfold fm_count. rewrite (fm_contains_split lt fst HO k A B C) by assumption. cbn [obind].
    eexists; split; [|eassumption]. subst B. cbn [snd]. unfold ms_has. destruct (ms_get m k); reflexivity.
  - unfold fm_at. rewrite (fm_lookup_split lt fst HO k A B C) by assumption. cbn [obind].
    eexists; split; [|eassumption]. subst B. cbn [snd]. destruct (ms_get m k); reflexivity.
Qed.

Lemma run_rel ops : forall es m, map_rel es m ->
  exists es', fm_run lt default es ops = Some (es', snd (ms_run lt default m ops)) /\
              map_rel es' (fst (ms_run lt default m ops)).
Proof.
  induction ops as [|op ops IH]; intros es m HR.
  - exists es. split; [reflexivity|assumption].
  - cbn [fm_run ms_run]. destruct (step_rel es m op HR) as (es1 & H1 & R1). rewrite H1. cbn [obind fst snd].
    destruct (ms_step lt default m op) as [m1 o] eqn:Em. cbn [fst snd] in *.
    destruct (IH es1 m1 R1) as (es2 & H2 & R2). rewrite H2. cbn [obind fst snd].
    destruct (ms_run lt default m1 ops) as [m2 os]. exists es2. split; [reflexivity|assumption].
Qed.
End M.

Lemma olist_find {X} (f : X -> bool) l o : filter f l = olist o -> find f l = o.
Proof.
  revert o. induction l as [|x l IH]; intros o H; cbn in *; [destruct o; [discriminate|reflexivity]|].
  destruct (f x); [|apply IH; assumption]. destruct o; inversion H; reflexivity.
Qed.

(* C29: after any history, all outputs are those of the mathematical map, the
   entries are in strictly increasing key order, and the stored entry of each
   key is the one the mathematical map holds. *)
Theorem flat_map_history :
  forall (K V : Type) (lt : K -> K -> bool) (default : V) (ops : list (@fm_op K V)),
  strict_weak_order lt ->
  let '(m, outs) := ms_run lt default ms_empty ops in
  exists es, fm_run lt default [] ops = Some (es, outs) /\
    StronglySorted (fun a b => lt (fst a) (fst b) = true) es /\
    length es = ms_size m /\
    (forall k, find (fun e => eqv lt k (fst e)) es = ms_get m k).
Proof.
  intros K V lt default ops HO.
  destruct (run_rel lt default HO ops [] ms_empty) as (es & H1 & H2 & H3 & H4).
  { split; [constructor|]. split; [reflexivity|]. reflexivity. }
  destruct (ms_run lt default ms_empty ops) as [m outs]. exists es. cbn [fst snd] in *.
  repeat split; try assumption. intros k. apply olist_find, H4.
Qed.

(* C29: the bounds delimit exactly the entries before, equivalent to, and after
   the key, in every reachable state *)
Theorem flat_map_bounds :
  forall (K V : Type) (lt : K -> K -> bool) (default : V) (ops : list (@fm_op K V)) es outs k,
  strict_weak_order lt -> fm_run lt default [] ops = Some (es, outs) ->
  exists i j, lower_bound lt fst es k = Some i /\ upper_bound lt fst es k = Some j /\
    equal_range lt fst es k = Some (i, j) /\ i <= j <= length es /\ j - i <= 1 /\
    Forall (fun e => lt (fst e) k = true) (firstn i es) /\
    Forall (fun e => eqv lt k (fst e) = true) (firstn (j - i) (skipn i es)) /\
    Forall (fun e => lt k (fst e) = true) (skipn j es).
Proof.
  intros K V lt default ops es outs k HO Hr.
  destruct (run_rel lt default HO ops [] ms_empty) as (es' & H1 & H2 & H3 & H4).
  { split; [constructor|]. split; [reflexivity|]. reflexivity. }
  rewrite Hr in H1. inversion H1; subst es'. clear H1.
  destruct (three_split lt fst HO es k) as (A & B & C & -> & HA & HB & HC); [now apply ssorted_wsorted|].
  exists (length A), (length A + length B).
  rewrite (lower_bound_split lt fst HO k A B C) by assumption.
  unfold upper_bound. rewrite (do_upper_bound_split lt fst HO k A B C) by (assumption || lia).
  rewrite (equal_range_split lt fst HO k A B C) by assumption.
  pose proof (ssorted_at_most_one lt fst HO k A B C H2 HB).
  repeat split; rewrite ?app_length; try lia.
  - rewrite firstn_app, Nat.sub_diag, firstn_all. cbn [firstn]. now rewrite app_nil_r.
  - rewrite skipn_app, Nat.sub_diag, skipn_all. cbn [skipn app].
    replace (length A + length B - length A) with (length B) by lia.
    rewrite firstn_app, Nat.sub_diag, firstn_all. cbn [firstn]. now rewrite app_nil_r.
  - rewrite app_assoc, skipn_app, <- app_length, skipn_all, Nat.sub_diag. assumption.
Qed.

Lemma Zltb_swo : strict_weak_order Z.ltb.
Proof.
  split.
  - intros x. apply Z.ltb_irrefl.
  - intros x y z. rewrite !Z.ltb_lt. lia.
  - intros x y z. rewrite !Z.ltb_lt. lia.
Qed.

(* keys compared by their tens digit only: a strict weak order that is not total *)
Definition tens_lt (a b : Z) : bool := Z.ltb (a / 10) (b / 10).
Example tens_swo : strict_weak_order tens_lt.
Proof.
  unfold tens_lt. split.
  - intros x. apply Z.ltb_irrefl.
  - intros x y z. rewrite !Z.ltb_lt. lia.
  - intros x y z. rewrite !Z.ltb_lt. lia.
Qed.
Example flat_map_ex :
  fm_run tens_lt 0%Z [] [FmInsert 35 1; FmInsert 12 2; FmInsert 31 3; FmAssign 19 4; FmSubscript 70;
                         FmErase 33; FmLookup 11; FmLookup 35; FmCount 75; FmAt 1]%Z
  = Some ([(12, 4); (70, 0)]%Z,
          [FoInserted (35, 1) true; FoInserted (12, 2) true; FoInserted (35, 1) false; FoUnit; FoVal 0;
           FoNum 1; FoEntry (Some (12, 4)); FoEntry None; FoNum 1; FoAt None]%Z).
Proof. reflexivity. Qed.
Print Assumptions flat_map_history.
Print Assumptions flat_map_bounds.

(* C30 *)
Section MM.
Context {K E : Type} (lt : K -> K -> bool) (key : E -> K) (HO : strict_weak_order lt).

Definition bag_rel (es h : list E) : Prop :=
  wsorted lt key es /\ Permutation es h /\ forall k, bag_of lt key es k = bag_of lt key h k.

Lemma bag_split es h k : bag_rel es h -> exists A B C, es = A ++ B ++ C /\
  Forall (below lt key k) A /\ Forall (at_ lt key k) B /\ Forall (above lt key k) C /\ B = bag_of lt key h k.
Proof.
  intros (Hs & _ & Hf). destruct (three_split lt key HO es k Hs) as (A & B & C & -> & HA & HB & HC).
  exists A, B, C. repeat split; try assumption. rewrite <- (Hf k). symmetry. unfold bag_of. now apply split_filter.
Qed.

Lemma perm_filter (f : E -> bool) l1 l2 : Permutation l1 l2 -> Permutation (filter f l1) (filter f l2).
Proof.
  induction 1 as [|x l1 l2 _ IH|x y l|l1 l2 l3 _ IH1 _ IH2]; cbn.
  - constructor.
  - destruct (f x); [now constructor|assumption].
  - destruct (f x), (f y); try constructor; reflexivity.
  - etransitivity; eassumption.
Qed.

Lemma filter_neg_split k A B C : Forall (below lt key k) A -> Forall (at_ lt key k) B -> Forall (above lt key k) C ->
  filter (fun e => negb (eqv lt k (key e))) (A ++ B ++ C) = A ++ C.
Proof.
  intros HA HB HC. rewrite !filter_app. rewrite (filter_all _ A), (filter_none _ B), (filter_all _ C); [reflexivity| | |].
  - eapply Forall_impl; [|exact HC]. intros x Hx. apply (above_bools lt key HO) in Hx. destruct Hx as (_ & _ & ->). reflexivity.
  - eapply Forall_impl; [|exact HB]. intros x Hx. apply (at_bools lt key) in Hx. destruct Hx as (_ & _ & ->). reflexivity.
  - eapply Forall_impl; [|exact HA]. intros x Hx. apply (below_bools lt key HO) in Hx. destruct Hx as (_ & _ & ->). reflexivity.
Qed.

Lemma filter_filter (f g : E -> bool) l : filter f (filter g l) = filter (fun x => f x && g x) l.
Proof.
  induction l as [|x l IH]; [reflexivity|]. cbn. destruct (g x) eqn:G; cbn; rewrite IH.
  - now rewrite andb_true_r.
  - now rewrite andb_false_r.
Qed.
Lemma filter_comm (f g : E -> bool) l : filter f (filter g l) = filter g (filter f l).
Proof. rewrite !filter_filter. apply filter_ext. intros x. apply andb_comm. Qed.

Lemma mm_step_rel es h op : bag_rel es h ->
  exists es', mm_step lt key es op = Some (es', snd (bag_step lt key h op)) /\
              bag_rel es' (fst (bag_step lt key h op)).
Proof.
  intros HR. destruct op as [e|k| |k|k|k]; unfold mm_step, bag_step.
  3: { exists []. split; [reflexivity|]. split; [constructor|]. split; reflexivity. }
  - destruct (bag_split es h (key e) HR) as (A & B & C & -> & HA & HB & HC & HBm).
    rewrite (fm_insert_multi_split lt key HO A B C e) by assumption. cbn [obind fst snd].
    rewrite nth_error_app2, Nat.sub_diag by lia. cbn [nth_error obind].
    eexists. split; [reflexivity|]. destruct HR as (Hs & Hp & Hf). split; [|split].
    + apply (wsorted_insert lt key HO); assumption.
    + rewrite app_assoc in Hp. rewrite <- Permutation_middle, <- Permutation_cons_append. now constructor.
    + intros k. unfold bag_of in *. specialize (Hf k). rewrite app_assoc in Hf.
      rewrite (filter_app _ h). rewrite <- Hf. rewrite !(filter_app _ (A ++ B)). cbn [filter].
      destruct (eqv lt k (key e)) eqn:Q; [|now rewrite app_nil_r].
      rewrite (filter_none _ C); [now rewrite app_nil_r|].
      eapply Forall_impl; [|exact HC]. intros x Hx. rewrite (eqv_trans_l lt HO _ _ _ Q). apply (above_bools lt key HO), Hx.
  - destruct (bag_split es h k HR) as (A & B & C & -> & HA & HB & HC & HBm).
    rewrite (fm_erase_split lt key HO k A B C) by assumption. cbn [obind fst snd].
    exists (A ++ C). split; [now rewrite HBm|]. destruct HR as (Hs & Hp & Hf).
    rewrite <- (filter_neg_split k A B C) by assumption. split; [|split].
    + rewrite filter_neg_split by assumption. now apply wsorted_remove in Hs.
    + now apply perm_filter.
    + intros k'. unfold bag_of in *. rewrite filter_comm, Hf, filter_comm. reflexivity.
  - destruct (bag_split es h k HR) as (A & B & C & -> & HA & HB & HC & HBm).
    rewrite (fm_lookup_split lt key HO k A B C) by assumption. cbn [obind].
    eexists; split; [|eassumption]. now rewrite HBm.
  - destruct (bag_split es h k HR) as (A & B & C & -> & HA & HB & HC & HBm).
    rewrite (fm_contains_split lt key HO k A B C) by assumption. cbn [obind].
    eexists; split; [|eassumption]. now rewrite HBm.
  - destruct (bag_split es h k HR) as (A & B & C & -> & HA & HB & HC & HBm).
    unfold fm_count_multi. rewrite (equal_range_split lt key HO k A B C) by assumption. cbn [obind fst snd].
    eexists; split; [|eassumption]. cbn [snd]. rewrite <- HBm. do 3 f_equal. lia.
Qed.

Lemma mm_run_rel ops : forall es h, bag_rel es h ->
  exists es', mm_run lt key es ops = Some (es', snd (bag_run lt key h ops)) /\
              bag_rel es' (fst (bag_run lt key h ops)).
Proof.
  induction ops as [|op ops IH]; intros es m HR.
  - exists es. split; [reflexivity|assumption].
  - cbn [mm_run bag_run]. destruct (mm_step_rel es m op HR) as (es1 & H1 & R1). rewrite H1. cbn [obind fst snd].
    destruct (bag_step lt key m op) as [m1 o] eqn:Em. cbn [fst snd] in *.
    destruct (IH es1 m1 R1) as (es2 & H2 & R2). rewrite H2. cbn [obind fst snd].
    destruct (bag_run lt key m1 ops) as [m2 os]. exists es2. split; [reflexivity|assumption].
Qed.
End MM.

(* C30: after any history the entries are sorted by key, entries with equivalent
   keys are in insertion order, nothing is lost or duplicated, and all outputs
   (numbers of erased/counted entries, first equivalent entry) are right. *)
Theorem flat_multimap_history :
  forall (K E : Type) (lt : K -> K -> bool) (key : E -> K) (ops : list (@mm_op K E)),
  strict_weak_order lt ->
  let '(h, outs) := bag_run lt key [] ops in
  exists es, mm_run lt key [] ops = Some (es, outs) /\
    StronglySorted (fun a b => lt (key b) (key a) = false) es /\
    Permutation es h /\
    (forall k, filter (fun e => eqv lt k (key e)) es = filter (fun e => eqv lt k (key e)) h).
Proof.
  intros K E lt key ops HO.
  destruct (mm_run_rel lt key HO ops [] []) as (es & H1 & H2 & H3 & H4).
  { split; [constructor|]. split; reflexivity. }
  destruct (bag_run lt key [] ops) as [h outs]. exists es. cbn [fst snd] in *. repeat split; assumption.
Qed.

(* C30: equal_range delimits exactly the equivalent entries *)
Theorem flat_multimap_equal_range :
  forall (K E : Type) (lt : K -> K -> bool) (key : E -> K) (ops : list (@mm_op K E)) es outs k,
  strict_weak_order lt -> mm_run lt key [] ops = Some (es, outs) ->
  exists i j, lower_bound lt key es k = Some i /\ upper_bound lt key es k = Some j /\
    equal_range lt key es k = Some (i, j) /\ i <= j <= length es /\
    Forall (fun e => lt (key e) k = true) (firstn i es) /\
    firstn (j - i) (skipn i es) = filter (fun e => eqv lt k (key e)) es /\
    Forall (fun e => lt k (key e) = true) (skipn j es).
Proof.
  intros K E lt key ops es outs k HO Hr.
  destruct (mm_run_rel lt key HO ops [] []) as (es' & H1 & H2 & H3 & H4).
  { split; [constructor|]. split; reflexivity. }
  rewrite Hr in H1. inversion H1; subst es'. clear H1.
  destruct (three_split lt key HO es k H2) as (A & B & C & -> & HA & HB & HC).
  exists (length A), (length A + length B).
  rewrite (lower_bound_split lt key HO k A B C) by assumption.
  unfold upper_bound. rewrite (do_upper_bound_split lt key HO k A B C) by (assumption || lia).
  rewrite (equal_range_split lt key HO k A B C) by assumption.
  repeat split; rewrite ?app_length; try lia.
  - rewrite firstn_app, Nat.sub_diag, firstn_all. cbn [firstn]. now rewrite app_nil_r.
  - rewrite skipn_app, Nat.sub_diag, skipn_all. cbn [skipn app].
    replace (length A + length B - length A) with (length B) by lia.
    rewrite split_filter by assumption.
    rewrite firstn_app, Nat.sub_diag, firstn_all. cbn [firstn]. now rewrite app_nil_r.
  - rewrite app_assoc, skipn_app, <- app_length, skipn_all, Nat.sub_diag. assumption.
Qed.

Example flat_multimap_ex :
  mm_run tens_lt fst [] [MmInsert (35, 1); MmInsert (12, 2); MmInsert (31, 3); MmInsert (10, 4);
                         MmInsert (35, 5); MmCount 39; MmLookup 39; MmErase 15; MmContains 15]%Z
  = Some ([(35, 1); (31, 3); (35, 5)]%Z,
          [MoInserted (35, 1); MoInserted (12, 2); MoInserted (31, 3); MoInserted (10, 4);
           MoInserted (35, 5); MoNum 3; MoEntry (Some (35, 1)); MoNum 2; MoBool false]%Z).
Proof. reflexivity. Qed.
Print Assumptions flat_multimap_history.
Print Assumptions flat_multimap_equal_range.
