(* Proofs about named colors: lookup by name and by value *)
From Coq Require Import ZArith Lia.
From Coq Require Import List Bool Arith Sorting.Sorted Sorting.Permutation.
From Verif Require Import CInt BitMediumProofs StableSortModel StableSortSpec StableSortProofs CssModel CssSpec ArrLib.
Import ListNotations.
Open Scope Z_scope.

Section Lookup.
Context {K : Type} (ltb eqb : K -> K -> bool).
Hypothesis Heq : forall a b, eqb a b = true <-> a = b.
Hypothesis Hirr : forall a, ltb a a = false.
Hypothesis Htr : forall a b c, ltb a b = true -> ltb b c = true -> ltb a c = true.
Hypothesis Htot : forall a b, ltb a b = false -> ltb b a = false -> a = b.

Definition kless (a b : K * nat) : bool := ltb (fst a) (fst b).

Lemma ltb_neg a b c : ltb a b = false -> ltb b c = false -> ltb a c = false.
Proof.
  intros H1 H2. destruct (ltb a c) eqn:E; [|reflexivity]. destruct (ltb c b) eqn:E2.
  - rewrite <- H1. symmetry. eauto.
  - rewrite (Htot c b E2 H2) in E. congruence.
Qed.

Lemma kless_strict_weak : strict_weak kless.
Proof. unfold kless. split; [|split]; intros; cbn; eauto using ltb_neg. Qed.

Lemma find_filter {A} (f : A -> bool) l : find f l = hd_error (filter f l).
Proof. induction l as [|a l IH]; [reflexivity|]. cbn. destruct (f a); [reflexivity|exact IH]. Qed.

Lemma tied_key k e : tied kless (k, 0%nat) e = eqb (fst e) k.
Proof.
  unfold tied, kless. cbn. destruct (eqb (fst e) k) eqn:E.
  - apply Heq in E. rewrite E, !Hirr. reflexivity.
  - destruct (ltb k (fst e)) eqn:E1; [reflexivity|]. destruct (ltb (fst e) k) eqn:E2; [reflexivity|].
    rewrite (Htot _ _ E2 E1) in E. assert (eqb k k = true) by now apply Heq. congruence.
Qed.

Lemma lookup_sorted k l : StronglySorted (fun x y => kless y x = false) l ->
  exists i, lower_bound (fun e => ltb (fst e) k) l = Some i /\
    match nth_error l i with
    | Some e => if eqb (fst e) k then Some (snd e) else None
    | None => None
    end = option_map snd (find (fun e => eqb (fst e) k) l).
Proof.
  induction 1 as [|e l H IH HF]; [exists 0%nat; now split|]. cbn [lower_bound find].
  destruct (ltb (fst e) k) eqn:E.
  - destruct IH as (i & -> & Hi). exists (S i). cbn [obind nth_error]. split; [reflexivity|]. rewrite Hi.
    destruct (eqb (fst e) k) eqn:E2; [|reflexivity]. apply Heq in E2. now rewrite E2, Hirr in E.
  - assert (Hge : forall x, In x l -> ltb (fst x) k = false).
    { intros x Hx. rewrite Forall_forall in HF. specialize (HF x Hx). unfold kless in HF. eauto using ltb_neg. }
    replace (existsb (fun e => ltb (fst e) k) l) with false.
    2:{ symmetry. apply not_true_is_false. intros X. apply existsb_exists in X. destruct X as (x & Hx & Hy).
        rewrite Hge in Hy by assumption. discriminate. }
    exists 0%nat. split; [reflexivity|]. cbn [nth_error].
    destruct (eqb (fst e) k) eqn:E2; [reflexivity|].
    destruct (find _ l) eqn:E3; [|reflexivity]. exfalso. apply find_some in E3. destruct E3 as [I E3].
    rewrite Forall_forall in HF. specialize (HF _ I). unfold kless in HF. apply Heq in E3. rewrite E3 in HF.
    rewrite (Htot _ _ E HF) in E2. assert (eqb k k = true) by now apply Heq. congruence.
Qed.

Lemma find_combine k i keys : forall a,
  option_map snd (find (fun e => eqb (fst e) k) (combine keys (seq a (length keys)))) = Some i <->
  (a <= i)%nat /\ first_place keys k (i - a).
Proof.
  induction keys as [|x keys IH]; intros a; cbn.
  - split; [discriminate|]. intros [_ [H _]]. now destruct (i - a)%nat.
  - destruct (eqb x k) eqn:E.
    + apply Heq in E. subst x. cbn. split.
      * intros H. injection H as <-. split; [lia|]. rewrite Nat.sub_diag. split; [reflexivity|]. intros; lia.
      * intros [H1 [H2 H3]]. destruct (i - a)%nat as [|m] eqn:E; [f_equal; lia|].
        exfalso. now apply (H3 0%nat ltac:(lia)).
    + rewrite IH. split.
      * intros [H1 [H2 H3]]. split; [lia|]. replace (i - a)%nat with (S (i - S a)) by lia. split; [exact H2|].
        intros [|j] Hj; cbn; [|apply H3; lia]. intros [= ->]. assert (eqb k k = true) by now apply Heq. congruence.
      * intros [H1 [H2 H3]]. destruct (i - a)%nat as [|m] eqn:E2.
        { cbn in H2. injection H2 as ->. assert (eqb k k = true) by now apply Heq. congruence. }
        split; [lia|]. replace (i - S a)%nat with m by lia. split; [exact H2|].
        intros j Hj. apply (H3 (S j)). lia.
Qed.

Lemma lookup_exact keys k : exists m,
  stable_sort kless (combine keys (seq 0 (length keys))) = Some m /\
  exists n, lower_bound (fun e => ltb (fst e) k) m = Some n /\
  forall i,
    match nth_error m n with
    | Some e => if eqb (fst e) k then Some (snd e) else None
    | None => None
    end = Some i <-> first_place keys k i.
Proof.
  destruct (stable_sort_ok kless kless_strict_weak (combine keys (seq 0 (length keys)))) as (m & E & (_ & Hs & Hf)).
  exists m. split; [exact E|]. destruct (lookup_sorted k m Hs) as (n & E2 & E3). exists n. split; [exact E2|].
  intros i. rewrite E3. rewrite find_filter.
  assert (X : forall l, filter (fun e => eqb (fst e) k) l = filter (tied kless (k, 0%nat)) l).
  { intros l. apply filter_ext. intros e. symmetry. apply tied_key. }
  rewrite X, Hf, <- X, <- find_filter. rewrite find_combine. rewrite Nat.sub_0_r. split; [tauto|]. split; [lia|tauto].
Qed.

End Lookup.

Lemma sv_eq_ok a : forall b, sv_eq a b = true <-> a = b.
Proof.
  induction a as [|x a IH]; intros [|y b]; cbn; try (split; congruence).
  rewrite andb_true_iff, Z.eqb_eq, IH. split; [intros [-> ->]; reflexivity|intros [= -> ->]; auto].
Qed.

Lemma sv_less_irr a : sv_less a a = false.
Proof. induction a as [|x a IH]; cbn; [reflexivity|]. rewrite Z.ltb_irrefl, Z.eqb_refl. exact IH. Qed.

Lemma sv_less_tr a : forall b c, sv_less a b = true -> sv_less b c = true -> sv_less a c = true.
Proof.
  induction a as [|x a IH]; intros [|y b] [|z c]; cbn; try congruence.
  rewrite !orb_true_iff, !andb_true_iff, !Z.ltb_lt, !Z.eqb_eq. intros [H|[-> H]] [H2|[-> H2]]; try (left; lia).
  right. eauto.
Qed.

Lemma sv_less_tot a : forall b, sv_less a b = false -> sv_less b a = false -> a = b.
Proof.
  induction a as [|x a IH]; intros [|y b]; cbn; try congruence.
  rewrite !orb_false_iff, !andb_false_iff, !Z.ltb_ge, !Z.eqb_neq. intros [H1 H2] [H3 H4].
  assert (x = y) as -> by lia. f_equal. apply IH; tauto.
Qed.

Definition color_names : list (list Z) := map fst named_colors.

Lemma names_nodup : NoDup color_names.
Proof.
  assert (forall l, (fix nd (l : list (list Z)) := match l with [] => true | x :: l => negb (existsb (sv_eq x) l) && nd l end) l = true -> NoDup l) as X.
  { induction l as [|x l IH]; intros H; [constructor|]. apply andb_true_iff in H. destruct H as [H1 H2].
    constructor; [|auto]. intros I. apply negb_true_iff in H1. rewrite <- not_true_iff_false in H1. apply H1.
    apply existsb_exists. exists x. split; [exact I|]. now apply sv_eq_ok. }
  apply X. vm_compute. reflexivity.
Qed.

Lemma find_by_name_ok name : exists r, find_by_name name = Some r /\
  forall i, r = Some i <-> nth_error color_names i = Some name.
Proof.
  unfold find_by_name, name_map.
  destruct (lookup_exact sv_less sv_eq sv_eq_ok sv_less_irr sv_less_tr sv_less_tot color_names name)
    as (m & E & n & E2 & H).
  unfold kless in E. unfold color_names in E at 2. rewrite map_length in E. fold color_names. rewrite E. cbn [obind].
  rewrite E2. cbn [obind].
  exists (match nth_error m n with Some e => if sv_eq (fst e) name then Some (snd e) else None | None => None end).
  split.
  - destruct (nth_error m n) as [e|]; [|reflexivity]. now destruct (sv_eq (fst e) name).
  - intros i. rewrite H. split; [intros [X _]; exact X|]. intros X. split; [exact X|]. intros j Hj Y.
    assert (i = j); [|lia]. apply (proj1 (NoDup_nth_error color_names) names_nodup).
    + apply nth_error_Some. congruence.
    + congruence.
Qed.

Lemma byte_lor4 r g b a : 0 <= r < 256 -> 0 <= g < 256 -> 0 <= b < 256 -> 0 <= a < 256 ->
  to_rgba r g b a = r * 16777216 + g * 65536 + b * 256 + a.
Proof.
  intros Hr Hg Hb Ha. unfold to_rgba, wrap, rgba_type. cbn [isigned iwidth].
  rewrite !Z.shiftl_mul_pow2 by lia. rewrite !Z.mod_small by lia.
  pose proof lor_shift_add as L.
  rewrite (L r (g * 2 ^ 16) 24) by lia.
  replace (r * 2 ^ 24 + g * 2 ^ 16) with ((r * 256 + g) * 2 ^ 16) by lia. rewrite L by lia.
  replace ((r * 256 + g) * 2 ^ 16 + b * 2 ^ 8) with ((r * 65536 + g * 256 + b) * 2 ^ 8) by lia. rewrite L by lia. lia.
Qed.

Lemma find_by_value_ok x : hex_ok x -> exists r, find_by_value x = Some r /\
  forall i, r = Some i <-> first_place (map snd named_colors) x i.
Proof.
  intros Hx. unfold find_by_value, value_map.
  set (val := fun e : list Z * hex => to_rgba (h_r (snd e)) (h_g (snd e)) (h_b (snd e)) (h_a (snd e))).
  set (v := to_rgba (h_r x) (h_g x) (h_b x) (h_a x)).
  destruct (lookup_exact Z.ltb Z.eqb Z.eqb_eq Z.ltb_irrefl) with (keys := map val named_colors) (k := v)
    as (m & E & n & E2 & H).
  { intros a b c. rewrite !Z.ltb_lt. lia. }
  { intros a b. rewrite !Z.ltb_ge. lia. }
  unfold kless in E. rewrite map_length in E. rewrite E. cbn [obind]. rewrite E2. cbn [obind].
  exists (match nth_error m n with Some e => if fst e =? v then Some (snd e) else None | None => None end).
  split.
  - destruct (nth_error m n) as [e|]; [|reflexivity]. now destruct (fst e =? v).
  - intros i. rewrite H.
    assert (A : Forall (fun e => hex_ok (snd e)) named_colors).
    { apply Forall_forall. intros e He. unfold hex_ok.
      assert (X : forallb (fun e => (0 <=? h_r (snd e)) && (h_r (snd e) <? 256) && (0 <=? h_g (snd e)) && (h_g (snd e) <? 256) &&
                   (0 <=? h_b (snd e)) && (h_b (snd e) <? 256) && (0 <=? h_a (snd e)) && (h_a (snd e) <? 256)) named_colors = true)
        by (vm_compute; reflexivity).
      rewrite forallb_forall in X. specialize (X e He). rewrite !andb_true_iff, !Z.leb_le, !Z.ltb_lt in X. lia. }
    assert (B : forall j, nth_error (map val named_colors) j = Some v <-> nth_error (map snd named_colors) j = Some x).
    { intros j. rewrite !nth_error_map. destruct (nth_error named_colors j) as [e|] eqn:Ej; [|cbn; split; congruence].
      cbn. rewrite Forall_forall in A. apply nth_error_In in Ej. specialize (A e Ej). destruct A as (A1 & A2 & A3 & A4).
      destruct Hx as (X1 & X2 & X3 & X4). unfold val, v. rewrite !byte_lor4 by assumption.
      destruct e as [en [er eg eb ea]], x as [xr xg xb xa]. cbn [snd h_r h_g h_b h_a] in *. split; intros Y; f_equal.
      - injection Y as Y. f_equal; lia.
      - injection Y as -> -> -> ->. reflexivity. }
    unfold first_place. rewrite B. split; intros [X Y]; (split; [exact X|]); intros j Hj Z; apply (Y j Hj); now apply B.
Qed.
