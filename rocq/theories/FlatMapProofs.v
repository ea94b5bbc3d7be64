(* Lemmas about the flat map model. *)
From Coq Require Import List Arith Bool Lia Sorted Permutation.
From Verif Require Import ArrLib FlatMapModel FlatMapSpec.
Import ListNotations.

Section P.
Context {K E : Type} (lt : K -> K -> bool) (key : E -> K) (HO : strict_weak_order lt).

Definition wsorted := StronglySorted (fun a b => lt (key b) (key a) = false).
Definition ssorted := StronglySorted (fun a b => lt (key a) (key b) = true).

Lemma lt_irrefl x : lt x x = false. Proof. apply (swo_irrefl lt HO). Qed.
Lemma lt_trans x y z : lt x y = true -> lt y z = true -> lt x z = true. Proof. apply (swo_trans lt HO). Qed.
Lemma lt_neg x y z : lt x z = true -> lt x y = true \/ lt y z = true. Proof. apply (swo_neg_trans lt HO). Qed.
Lemma lt_asym x y : lt x y = true -> lt y x = false.
Proof.
  intros H. destruct (lt y x) eqn:E'; [|reflexivity].
  pose proof (lt_trans _ _ _ H E'). rewrite lt_irrefl in *. discriminate.
Qed.
Lemma eqv_true a b : eqv lt a b = true <-> lt a b = false /\ lt b a = false.
Proof. unfold eqv. destruct (lt a b), (lt b a); cbn; intuition congruence. Qed.
Lemma eqv_refl a : eqv lt a a = true. Proof. apply eqv_true. now rewrite lt_irrefl. Qed.
Lemma eqv_sym a b : eqv lt a b = eqv lt b a. Proof. unfold eqv. apply andb_comm. Qed.
Lemma lt_eqv_l a b c : eqv lt a b = true -> lt a c = lt b c.
Proof.
  intros H. apply eqv_true in H. destruct H as [H1 H2].
  destruct (lt a c) eqn:A.
  - destruct (lt_neg _ b _ A); congruence.
  - destruct (lt b c) eqn:B; [|reflexivity]. destruct (lt_neg _ a _ B); congruence.
Qed.
Lemma lt_eqv_r a b c : eqv lt a b = true -> lt c a = lt c b.
Proof.
  intros H. apply eqv_true in H. destruct H as [H1 H2].
  destruct (lt c a) eqn:A.
  - destruct (lt_neg _ b _ A); congruence.
  - destruct (lt c b) eqn:B; [|reflexivity]. destruct (lt_neg _ a _ B); congruence.
Qed.
Lemma eqv_trans_l a b c : eqv lt a b = true -> eqv lt a c = eqv lt b c.
Proof. intros H. unfold eqv. now rewrite (lt_eqv_l a b c H), (lt_eqv_r a b c H). Qed.

Lemma ssorted_wsorted es : ssorted es -> wsorted es.
Proof.
  induction 1 as [|a es Hs IH Hf]; constructor; [assumption|].
  eapply Forall_impl; [|exact Hf]. intros b Hb. now apply lt_asym.
Qed.

Definition below k (e : E) := lt (key e) k = true.
Definition at_ k (e : E) := eqv lt k (key e) = true.
Definition above k (e : E) := lt k (key e) = true.

Lemma three_split es k : wsorted es -> exists A B C, es = A ++ B ++ C /\
  Forall (below k) A /\ Forall (at_ k) B /\ Forall (above k) C.
Proof.
  induction 1 as [|a es Hs IH Hf]; [exists [], [], []; repeat split; constructor|].
  destruct IH as (A & B & C & -> & HA & HB & HC).
  destruct (lt (key a) k) eqn:Ea.
  - exists (a :: A), B, C. repeat split; try assumption. constructor; assumption.
  - rewrite Forall_forall in Hf.
    assert (A = []) as ->.
    { destruct A as [|x A]; [reflexivity|]. specialize (Hf x (or_introl eq_refl)).
      inversion HA as [|? ? Hx]; subst. unfold below in Hx.
      destruct (lt_neg _ (key a) _ Hx); congruence. }
    destruct (lt k (key a)) eqn:Ea2.
    + assert (B = []) as ->.
      { destruct B as [|x B]; [reflexivity|]. specialize (Hf x (or_introl eq_refl)).
        inversion HB as [|? ? Hx]; subst. unfold at_ in Hx.
        rewrite <- (lt_eqv_l _ _ _ Hx) in Hf. congruence. }
      exists [], [], (a :: C). repeat split; try assumption. constructor; assumption.
    + exists [], (a :: B), C. repeat split; try assumption. constructor; [|assumption].
      apply eqv_true. auto.
Qed.

Lemma below_bools k e : below k e -> lt (key e) k = true /\ lt k (key e) = false /\ eqv lt k (key e) = false.
Proof. unfold below. intros H. pose proof (lt_asym _ _ H). unfold eqv. rewrite H, H0. auto. Qed.
Lemma at_bools k e : at_ k e -> lt (key e) k = false /\ lt k (key e) = false /\ eqv lt k (key e) = true.
Proof. unfold at_. intros H. pose proof H as H'. apply eqv_true in H'. intuition. Qed.
Lemma above_bools k e : above k e -> lt (key e) k = false /\ lt k (key e) = true /\ eqv lt k (key e) = false.
Proof. unfold above. intros H. pose proof (lt_asym _ _ H). unfold eqv. rewrite H, H0. auto. Qed.

Lemma filter_none {X} (f : X -> bool) l : Forall (fun x => f x = false) l -> filter f l = [].
Proof. induction 1 as [|x l Hx _ IH]; [reflexivity|]. cbn. now rewrite Hx. Qed.
Lemma filter_all {X} (f : X -> bool) l : Forall (fun x => f x = true) l -> filter f l = l.
Proof. induction 1 as [|x l Hx _ IH]; [reflexivity|]. cbn. now rewrite Hx, IH. Qed.

Lemma split_filter k A B C : Forall (below k) A -> Forall (at_ k) B -> Forall (above k) C ->
  filter (fun e => eqv lt k (key e)) (A ++ B ++ C) = B.
Proof.
  intros HA HB HC. rewrite !filter_app.
  rewrite (filter_none _ A), (filter_all _ B), (filter_none _ C).
  - now rewrite app_nil_r.
  - eapply Forall_impl; [|exact HC]. intros e He. apply above_bools, He.
  - eapply Forall_impl; [|exact HB]. intros e He. apply at_bools, He.
  - eapply Forall_impl; [|exact HA]. intros e He. apply below_bools, He.
Qed.

Lemma lower_bound_loop_spec k l1 l2 fuel : 
  Forall (fun e => lt (key e) k = true) l1 -> Forall (fun e => lt (key e) k = false) l2 ->
  forall begin end_, begin <= length l1 <= end_ -> end_ <= length (l1 ++ l2) -> end_ - begin < fuel ->
  lower_bound_loop lt key fuel (l1 ++ l2) k begin end_ = Some (length l1).
Proof.
  intros H1 H2. rewrite Forall_forall in H1, H2.
  induction fuel as [|fuel IH]; intros b e Hb He Hf; [lia|]. cbn [lower_bound_loop].
  destruct (Nat.eqb_spec b e); [f_equal; lia|].
  pose proof (Nat.div_mod (e - b) 2 ltac:(lia)). pose proof (Nat.mod_upper_bound (e - b) 2 ltac:(lia)).
  set (d := (e - b) / 2) in *. cbv zeta.
  destruct (Nat.lt_ge_cases (b + d) (length l1)) as [Hm|Hm].
  - rewrite nth_error_app1 by lia.
    destruct (nth_error l1 (b + d)) as [x|] eqn:Ex; [|apply nth_error_None in Ex; lia].
    cbn [obind]. rewrite H1 by (eapply nth_error_In; eauto). apply IH; lia.
  - rewrite nth_error_app2 by lia. rewrite app_length in He.
    destruct (nth_error l2 (b + d - length l1)) as [x|] eqn:Ex; [|apply nth_error_None in Ex; lia].
    cbn [obind]. rewrite H2 by (eapply nth_error_In; eauto). apply IH; rewrite ?app_length; lia.
Qed.

Lemma upper_bound_loop_spec k l1 l2 fuel : 
  Forall (fun e => lt k (key e) = false) l1 -> Forall (fun e => lt k (key e) = true) l2 ->
  forall begin end_, begin <= length l1 <= end_ -> end_ <= length (l1 ++ l2) -> end_ - begin < fuel ->
  upper_bound_loop lt key fuel (l1 ++ l2) k begin end_ = Some (length l1).
Proof.
  intros H1 H2. rewrite Forall_forall in H1, H2.
  induction fuel as [|fuel IH]; intros b e Hb He Hf; [lia|]. cbn [upper_bound_loop].
  destruct (Nat.eqb_spec b e); [f_equal; lia|].
  pose proof (Nat.div_mod (e - b) 2 ltac:(lia)). pose proof (Nat.mod_upper_bound (e - b) 2 ltac:(lia)).
  set (d := (e - b) / 2) in *. cbv zeta.
  destruct (Nat.lt_ge_cases (b + d) (length l1)) as [Hm|Hm].
  - rewrite nth_error_app1 by lia.
    destruct (nth_error l1 (b + d)) as [x|] eqn:Ex; [|apply nth_error_None in Ex; lia].
    cbn [obind]. rewrite H1 by (eapply nth_error_In; eauto). cbn [negb]. apply IH; lia.
  - rewrite nth_error_app2 by lia. rewrite app_length in He.
    destruct (nth_error l2 (b + d - length l1)) as [x|] eqn:Ex; [|apply nth_error_None in Ex; lia].
    cbn [obind]. rewrite H2 by (eapply nth_error_In; eauto). cbn [negb]. apply IH; rewrite ?app_length; lia.
Qed.

Section Split.
Context (k : K) (A B C : list E) (HA : Forall (below k) A) (HB : Forall (at_ k) B) (HC : Forall (above k) C).

Lemma lower_bound_split : lower_bound lt key (A ++ B ++ C) k = Some (length A).
Proof.
  unfold lower_bound. apply lower_bound_loop_spec; rewrite ?app_length; try lia.
  - eapply Forall_impl; [|exact HA]. intros e He. apply below_bools, He.
  - apply Forall_app. split.
    + eapply Forall_impl; [|exact HB]. intros e He. apply at_bools, He.
    + eapply Forall_impl; [|exact HC]. intros e He. apply above_bools, He.
Qed.

Lemma do_upper_bound_split i : i <= length A + length B ->
  do_upper_bound lt key (A ++ B ++ C) k i = Some (length A + length B).
Proof.
  intros Hi. unfold do_upper_bound. rewrite app_assoc, <- app_length.
  apply upper_bound_loop_spec; rewrite ?app_length; try lia.
  - apply Forall_app. split.
    + eapply Forall_impl; [|exact HA]. intros e He. apply below_bools, He.
    + eapply Forall_impl; [|exact HB]. intros e He. apply at_bools, He.
  - eapply Forall_impl; [|exact HC]. intros e He. apply above_bools, He.
Qed.

Lemma equal_range_split : equal_range lt key (A ++ B ++ C) k = Some (length A, length A + length B).
Proof.
  unfold equal_range. rewrite lower_bound_split. cbn [obind].
  rewrite do_upper_bound_split by lia. reflexivity.
Qed.

Lemma do_find_split : do_find lt key (A ++ B ++ C) k =
  Some (match B with [] => false | _ => true end, length A).
Proof.
  unfold do_find. rewrite lower_bound_split. cbn [obind].
  rewrite !app_length. destruct B as [|b B'].
  - cbn [app length]. destruct C as [|c C'].
    + cbn [length]. replace (length A <? length A + (0 + 0)) with false by (symmetry; apply Nat.ltb_ge; lia).
      reflexivity.
    + cbn [length]. replace (length A <? length A + (0 + S (length C'))) with true by (symmetry; apply Nat.ltb_lt; lia).
      rewrite nth_error_app2, Nat.sub_diag by lia. cbn [nth_error obind].
      inversion HC as [|? ? Hc]; subst. unfold above in Hc. now rewrite Hc.
  - cbn [app length]. replace (length A <? length A + (S (length B') + length C)) with true by (symmetry; apply Nat.ltb_lt; lia).
    rewrite nth_error_app2, Nat.sub_diag by lia. cbn [nth_error obind app].
    inversion HB as [|? ? Hb]; subst. apply at_bools in Hb. destruct Hb as (_ & Hb & _). now rewrite Hb.
Qed.

Lemma fm_find_split : fm_find lt key (A ++ B ++ C) k =
  Some (match B with [] => length (A ++ B ++ C) | _ => length A end).
Proof. unfold fm_find. rewrite do_find_split. cbn [obind fst snd]. destruct B; reflexivity. Qed.

Lemma fm_contains_split : fm_contains lt key (A ++ B ++ C) k = Some (match B with [] => false | _ => true end).
Proof.
  unfold fm_contains. rewrite fm_find_split. cbn [obind]. destruct B as [|b B'].
  - now rewrite Nat.eqb_refl.
  - rewrite !app_length. cbn [length app].
    destruct (Nat.eqb_spec (length A) (length A + (S (length B') + length C))); [lia|reflexivity].
Qed.

Lemma fm_lookup_split : fm_lookup lt key (A ++ B ++ C) k = Some (hd_error B).
Proof.
  unfold fm_lookup. rewrite fm_find_split. cbn [obind]. destruct B as [|b B'].
  - now rewrite Nat.eqb_refl.
  - rewrite !app_length. cbn [length app].
    destruct (Nat.eqb_spec (length A) (length A + (S (length B') + length C))); [lia|].
    rewrite nth_error_app2, Nat.sub_diag by lia. reflexivity.
Qed.

Lemma vec_emplace_split (l1 l2 : list E) e : vec_emplace (l1 ++ l2) (length l1) e = Some (l1 ++ e :: l2).
Proof.
  unfold vec_emplace. rewrite app_length. replace (length l1 <=? length l1 + length l2) with true by (symmetry; apply Nat.leb_le; lia).
  rewrite firstn_app, skipn_app, Nat.sub_diag, firstn_all, skipn_all. cbn [firstn skipn app]. now rewrite app_nil_r.
Qed.

Lemma fm_erase_split : fm_erase lt key (A ++ B ++ C) k = Some (A ++ C, length B).
Proof.
  unfold fm_erase. rewrite equal_range_split. cbn [obind fst snd]. unfold vec_erase.
  rewrite !app_length. replace (length A <=? length A + length B) with true by (symmetry; apply Nat.leb_le; lia).
  replace (length A + length B <=? length A + (length B + length C)) with true by (symmetry; apply Nat.leb_le; lia).
  cbn [andb obind]. do 2 f_equal; [f_equal|lia].
  - rewrite firstn_app, Nat.sub_diag, firstn_all. cbn [firstn]. now rewrite app_nil_r.
  - rewrite app_assoc, skipn_app, <- app_length, skipn_all, Nat.sub_diag. reflexivity.
Qed.
End Split.

Lemma fm_insert_split A B C e : Forall (below (key e)) A -> Forall (at_ (key e)) B -> Forall (above (key e)) C ->
  fm_insert lt key (A ++ B ++ C) e =
  match B with
  | [] => Some (A ++ e :: C, length A, true)
  | _ => Some (A ++ B ++ C, length A, false)
  end.
Proof.
  intros HA HB HC. unfold fm_insert. rewrite (do_find_split _ A B C) by assumption. cbn [obind fst snd].
  destruct B as [|b B]; cbn [negb].
  - cbn [app]. rewrite vec_emplace_split. reflexivity.
  - reflexivity.
Qed.

Lemma fm_insert_multi_split A B C e : Forall (below (key e)) A -> Forall (at_ (key e)) B -> Forall (above (key e)) C ->
  fm_insert_multi lt key (A ++ B ++ C) e = Some ((A ++ B) ++ e :: C, length (A ++ B)).
Proof.
  intros HA HB HC. unfold fm_insert_multi, upper_bound. rewrite (do_upper_bound_split _ A B C) by (assumption || lia).
  cbn [obind]. rewrite app_assoc, <- app_length, vec_emplace_split. reflexivity.
Qed.

(* sortedness of pieces *)
Lemma SS_app {X} (R : X -> X -> Prop) (l1 l2 : list X) : StronglySorted R (l1 ++ l2) <->
  StronglySorted R l1 /\ StronglySorted R l2 /\ (forall x y, In x l1 -> In y l2 -> R x y).
Proof.
  induction l1 as [|a l1 IH]; cbn.
  - split; [intros H; repeat split; [constructor|assumption|intros ? ? []]|intros (_ & H & _); assumption].
  - split.
    + intros H. inversion H as [|? ? Hs Hf]; subst. apply IH in Hs. destruct Hs as (H1 & H2 & H3).
      apply Forall_app in Hf. destruct Hf as [F1 F2]. rewrite Forall_forall in F2. repeat split.
      * constructor; assumption.
      * assumption.
      * intros x y [->|Hx] Hy; auto.
    + intros (H1 & H2 & H3). inversion H1 as [|? ? Hs Hf]; subst. constructor.
      * apply IH. repeat split; auto.
      * apply Forall_app. split; [assumption|]. apply Forall_forall. intros y Hy. apply H3; auto.
Qed.

Lemma SS_cons {X} (R : X -> X -> Prop) a (l : list X) : StronglySorted R (a :: l) <->
  StronglySorted R l /\ (forall y, In y l -> R a y).
Proof.
  split.
  - intros H. inversion H; subst. split; [assumption|]. now rewrite <- Forall_forall.
  - intros [H1 H2]. constructor; [assumption|]. now apply Forall_forall.
Qed.

Lemma ssorted_remove A B C : ssorted (A ++ B ++ C) -> ssorted (A ++ C).
Proof.
  unfold ssorted. rewrite !SS_app. intros (H1 & (H2 & H3 & H4) & H5). repeat split; auto.
  intros x y Hx Hy. apply H5; [assumption|]. apply in_or_app. auto.
Qed.
Lemma wsorted_remove A B C : wsorted (A ++ B ++ C) -> wsorted (A ++ C).
Proof.
  unfold wsorted. rewrite !SS_app. intros (H1 & (H2 & H3 & H4) & H5). repeat split; auto.
  intros x y Hx Hy. apply H5; [assumption|]. apply in_or_app. auto.
Qed.

Lemma ssorted_insert A C e : ssorted (A ++ C) -> Forall (below (key e)) A -> Forall (above (key e)) C ->
  ssorted (A ++ e :: C).
Proof.
  unfold ssorted. rewrite !SS_app, SS_cons, !Forall_forall. intros (H1 & H2 & H3) HA HC. repeat split; auto.
  intros x y Hx [<-|Hy]; [apply HA; assumption|auto].
Qed.

Lemma wsorted_insert A B C e : wsorted (A ++ B ++ C) ->
  Forall (below (key e)) A -> Forall (at_ (key e)) B -> Forall (above (key e)) C ->
  wsorted ((A ++ B) ++ e :: C).
Proof.
  rewrite app_assoc.
  unfold wsorted. rewrite (SS_app _ (A ++ B)), (SS_app _ (A ++ B)), SS_cons, !Forall_forall.
  intros (H1 & H2 & H3) HA HB HC. repeat split; auto.
  - intros y Hy. apply HC in Hy. apply above_bools in Hy. tauto.
  - intros x y Hx [<-|Hy]; [|auto]. apply in_app_or in Hx. destruct Hx as [Hx|Hx].
    + apply HA, below_bools in Hx. tauto.
    + apply HB, at_bools in Hx. tauto.
Qed.

(* a strictly sorted list has at most one entry per key *)
Lemma ssorted_at_most_one k A B C : ssorted (A ++ B ++ C) -> Forall (at_ k) B -> length B <= 1.
Proof.
  unfold ssorted. rewrite !SS_app. intros (_ & (H & _ & _) & _) HB.
  destruct B as [|b1 [|b2 B]]; cbn; try lia. exfalso.
  apply SS_cons in H. destruct H as [_ H]. specialize (H b2 (or_introl eq_refl)).
  inversion HB as [|? ? X1 X2]; subst. inversion X2 as [|? ? X3 _]; subst.
  unfold at_ in *. rewrite <- (lt_eqv_l _ _ _ X1), <- (lt_eqv_r _ _ _ X3), lt_irrefl in H. discriminate.
Qed.
End P.
