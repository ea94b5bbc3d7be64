From Coq Require Import ZArith Lia Bool List ZifyBool.
From Verif Require Import CInt IntModel IntSpec IntProofs IntProofs3.
From Verif Require Import PixelBoxModel PixelBoxSpec BitMediumModel BitMediumSpec BitMediumProofs BitMediumProofs2.
From Verif Require Import IntBitCopyProofs IntBitCopyProofs2.
From Verif Require Import ArrLib PixelBufModel PixelBufSpec PixelBufProofs PixelBufProofs2.
From Verif Require Import PackedPixelModel PackedPixelSpec.
Import ListNotations.
Open Scope Z_scope.

(* ---- lists ---- *)

Lemma nth_error_ext {A} (a b : list A) : length a = length b ->
  (forall i, (i < length a)%nat -> nth_error a i = nth_error b i) -> a = b.
Proof.
  revert b. induction a as [|x a IH]; intros [|y b] L H; cbn in L; try discriminate; [reflexivity|].
  pose proof (H 0%nat ltac:(cbn; lia)) as H0. cbn in H0. injection H0 as ->. f_equal. apply IH; [lia|].
  intros i Hi. apply (H (S i)). cbn. lia.
Qed.

Lemma nth_error_rev {A} (l : list A) i : (i < length l)%nat ->
  nth_error (rev l) i = nth_error l (length l - 1 - i).
Proof.
  intros H. induction l as [|x l IH]; [cbn in H; lia|]. cbn [rev length] in *.
  destruct (Nat.eq_dec i (length l)) as [->|].
  - rewrite nth_error_app2 by (rewrite rev_length; lia). rewrite rev_length, Nat.sub_diag.
    replace (S (length l) - 1 - length l)%nat with 0%nat by lia. reflexivity.
  - rewrite nth_error_app1 by (rewrite rev_length; lia). rewrite IH by lia.
    replace (S (length l) - 1 - i)%nat with (S (length l - 1 - i)) by lia. reflexivity.
Qed.

Lemma nth_error_skipn {A} (l : list A) k i : nth_error (skipn k l) i = nth_error l (k + i).
Proof.
  revert l. induction k as [|k IH]; intros l; [reflexivity|]. destruct l as [|x l]; cbn [skipn Nat.add].
  - now rewrite !nth_error_nil || (destruct i; reflexivity).
  - apply IH.
Qed.

Lemma nth_error_firstn {A} (l : list A) k i : (i < k)%nat -> nth_error (firstn k l) i = nth_error l i.
Proof.
  revert l i. induction k as [|k IH]; intros l i H; [lia|]. destruct l as [|x l]; [reflexivity|].
  destruct i as [|i]; cbn [firstn nth_error]; [reflexivity|]. apply IH. lia.
Qed.

Lemma map2_length {A B C} (g : A -> B -> C) a b : length a = length b -> length (map2 g a b) = length a.
Proof. revert b. induction a; intros [|y b] L; cbn in *; try lia. rewrite IHa; lia. Qed.

Lemma nth_error_map2 {A B C} (g : A -> B -> C) a b i x y :
  nth_error a i = Some x -> nth_error b i = Some y -> nth_error (map2 g a b) i = Some (g x y).
Proof.
  revert b i. induction a as [|u a IH]; intros b i Ha Hb; [destruct i; discriminate|].
  destruct b as [|v b]; [destruct i; discriminate|]. destruct i as [|i]; cbn [nth_error map2] in *; [congruence|].
  now apply IH.
Qed.

(* ---- channel order ---- *)

Lemma to_field_length {A} a r (cs : list A) : length (to_field_order a r cs) = length cs.
Proof.
  unfold to_field_order. destruct a, r; rewrite ?rev_length, ?app_length, ?skipn_length, ?firstn_length; lia.
Qed.

Lemma to_canonical_length {A} a r (cs : list A) : length (to_canonical_order a r cs) = length cs.
Proof.
  unfold to_canonical_order. destruct a, r; rewrite ?app_length, ?skipn_length, ?firstn_length, ?rev_length; lia.
Qed.

Lemma canonical_field {A} a r (cs : list A) : to_canonical_order a r (to_field_order a r cs) = cs.
Proof.
  assert (H : forall l : list A, let m := skipn (length l - 1) l ++ firstn (length l - 1) l in
    skipn 1 m ++ firstn 1 m = l).
  { intros l. destruct l as [|x l]; [reflexivity|]. cbn zeta.
    assert (L : length (skipn (length (x :: l) - 1) (x :: l)) = 1%nat) by (rewrite skipn_length; cbn [length]; lia).
    destruct (skipn (length (x :: l) - 1) (x :: l)) as [|z [|? ?]] eqn:E; try discriminate L. cbn [app skipn].
    change (firstn 1 (z :: ?m)) with [z]. cbn [firstn]. rewrite <- E. apply firstn_skipn. }
  unfold to_canonical_order, to_field_order. destruct a, r; rewrite ?rev_involutive; auto.
Qed.

Lemma field_canonical {A} a r (cs : list A) : to_field_order a r (to_canonical_order a r cs) = cs.
Proof.
  assert (H : forall l : list A, let m := skipn 1 l ++ firstn 1 l in
    skipn (length m - 1) m ++ firstn (length m - 1) m = l).
  { intros l. destruct l as [|x l]; [reflexivity|]. cbn [skipn firstn]. cbn zeta.
    rewrite app_length. cbn [length]. replace (length l + 1 - 1)%nat with (length l) by lia.
    rewrite skipn_app, firstn_app, Nat.sub_diag, skipn_all, firstn_all. cbn [skipn firstn app]. now rewrite app_nil_r. }
  unfold to_canonical_order, to_field_order. destruct a, r; cbv zeta; rewrite ?H, ?rev_involutive; auto.
Qed.

(* the index in field order *)
Definition fidx (n : Z) (a r : bool) (i : Z) : Z :=
  let j := if a then Z.rem (i + 1) n else i in if r then (n - 1) - j else j.

Lemma fidx_range n a r i : 0 <= i < n -> 0 <= fidx n a r i < n.
Proof.
  intros H. unfold fidx. assert (0 <= Z.rem (i + 1) n < n) by (apply Z.rem_bound_pos; lia).
  destruct a, r; lia.
Qed.

Lemma fidx_cases n a r i : 0 <= i < n ->
  fidx n a r i = if a then (if i =? n - 1 then (if r then n - 1 else 0) else if r then n - 2 - i else i + 1)
                 else if r then n - 1 - i else i.
Proof.
  intros H. unfold fidx. destruct (Z.eqb_spec i (n - 1)) as [->|].
  - replace (n - 1 + 1) with n by lia. rewrite Z.rem_same by lia. destruct a, r; lia.
  - rewrite Z.rem_small by lia. destruct a, r; lia.
Qed.

Lemma fidx_inj n a r i i' : 0 <= i < n -> 0 <= i' < n -> fidx n a r i = fidx n a r i' -> i = i'.
Proof.
  intros H H'. rewrite !fidx_cases by assumption.
  destruct (Z.eqb_spec i (n - 1)), (Z.eqb_spec i' (n - 1)), a, r; lia.
Qed.

Lemma fidx_sur n a r j : 0 <= j < n -> exists i, 0 <= i < n /\ fidx n a r i = j.
Proof.
  intros H. exists (let j := if r then n - 1 - j else j in if a then (if j =? 0 then n - 1 else j - 1) else j).
  cbv zeta. destruct a, r.
  - destruct (Z.eqb_spec (n - 1 - j) 0); (split; [lia|]); rewrite fidx_cases by lia.
    + rewrite Z.eqb_refl. lia.
    + destruct (Z.eqb_spec (n - 1 - j - 1) (n - 1)); lia.
  - destruct (Z.eqb_spec j 0); (split; [lia|]); rewrite fidx_cases by lia.
    + rewrite Z.eqb_refl. lia.
    + destruct (Z.eqb_spec (j - 1) (n - 1)); lia.
  - split; [lia|]. rewrite fidx_cases by lia. lia.
  - split; [lia|]. rewrite fidx_cases by lia. lia.
Qed.

Lemma nth_canonical {A} a r (l : list A) i : 0 <= i < Z.of_nat (length l) ->
  nth_error (to_canonical_order a r l) (Z.to_nat i) =
  nth_error l (Z.to_nat (fidx (Z.of_nat (length l)) a r i)).
Proof.
  intros H. rewrite fidx_cases by assumption. unfold to_canonical_order. set (l' := if r then rev l else l).
  assert (L : length l' = length l) by (unfold l'; destruct r; rewrite ?rev_length; reflexivity).
  assert (N : forall k, 0 <= k < Z.of_nat (length l) -> nth_error l' (Z.to_nat k) =
    nth_error l (Z.to_nat (if r then Z.of_nat (length l) - 1 - k else k))).
  { intros k Hk. unfold l'. destruct r; [|reflexivity]. rewrite nth_error_rev by lia. f_equal. lia. }
  destruct a; [|rewrite N by assumption; destruct r; reflexivity].
  destruct (Z.eqb_spec i (Z.of_nat (length l) - 1)).
  - rewrite nth_error_app2 by (rewrite skipn_length; lia). rewrite skipn_length, L.
    rewrite nth_error_firstn by lia. replace (Z.to_nat i - (length l - 1))%nat with (Z.to_nat 0) by lia.
    rewrite N by lia. destruct r; f_equal; lia.
  - rewrite nth_error_app1 by (rewrite skipn_length; lia). rewrite nth_error_skipn.
    replace (1 + Z.to_nat i)%nat with (Z.to_nat (i + 1)) by lia. rewrite N by lia. destruct r; f_equal; lia.
Qed.

Lemma nth_field {A} a r (cs : list A) i : 0 <= i < Z.of_nat (length cs) ->
  nth_error (to_field_order a r cs) (Z.to_nat (fidx (Z.of_nat (length cs)) a r i)) = nth_error cs (Z.to_nat i).
Proof.
  intros H. rewrite <- (canonical_field a r cs) at 3.
  rewrite nth_canonical by (rewrite to_field_length; assumption). now rewrite to_field_length.
Qed.

(* ---- fields ---- *)

Lemma total_nonneg fs : Forall field_ok fs -> 0 <= total fs.
Proof. induction 1 as [|f fs [H1 H2] _ IH]; cbn [total]; lia. Qed.

Lemma total_app a b : total (a ++ b) = total a + total b.
Proof. induction a; cbn [total app]; lia. Qed.

(* the shift of field number j *)
Definition shift_at (fs : list bit_field) (j : nat) : Z :=
  match nth_error fs j with Some f => fgap f + total (skipn (S j) fs) | None => 0 end.

Lemma nth_field_ok fs j f : Forall field_ok fs -> nth_error fs j = Some f ->
  field_ok f /\ 0 <= shift_at fs j /\ shift_at fs j + fwidth f <= total fs.
Proof.
  intros Hok Hf. assert (Hfo : field_ok f) by (eapply Forall_forall; [eassumption|eapply nth_error_In; eassumption]).
  split; [assumption|]. unfold shift_at. rewrite Hf.
  destruct (nth_error_split _ _ Hf) as (l1 & l2 & -> & <-).
  apply Forall_app in Hok as [Ho1 Ho2]. apply Forall_cons_iff in Ho2 as [_ Ho2].
  replace (skipn (S (length l1)) (l1 ++ f :: l2)) with l2
    by (change (f :: l2) with ([f] ++ l2); rewrite app_assoc, skipn_app, app_length; cbn [length];
        rewrite skipn_all2 by (rewrite app_length; cbn [length]; lia);
        replace (S (length l1) - (length l1 + 1))%nat with 0%nat by lia; reflexivity).
  rewrite total_app. cbn [total].
  pose proof (total_nonneg _ Ho1). pose proof (total_nonneg _ Ho2). destruct Hfo. lia.
Qed.

Lemma shift_at_S f fs j : shift_at (f :: fs) (S j) = shift_at fs j.
Proof. reflexivity. Qed.

Lemma field_values_length fs p : length (field_values fs p) = length fs.
Proof. induction fs; cbn; lia. Qed.

Lemma nth_field_values fs p j f : nth_error fs j = Some f ->
  nth_error (field_values fs p) j = Some ((p / 2 ^ shift_at fs j) mod 2 ^ fwidth f).
Proof.
  revert j. induction fs as [|g fs IH]; intros j H; [destruct j; discriminate|].
  destruct j as [|j]; cbn [nth_error field_values] in *.
  - injection H as ->. unfold shift_at. cbn [nth_error skipn]. reflexivity.
  - rewrite shift_at_S. now apply IH.
Qed.

Definition vals_ok (fs : list bit_field) (vs : list Z) : Prop :=
  Forall2 (fun f v => 0 <= v < 2 ^ fwidth f) fs vs.

Lemma compound_range fs vs : Forall field_ok fs -> vals_ok fs vs -> 0 <= compound fs vs < 2 ^ total fs.
Proof.
  intros Hok Hv. induction Hv as [|f v fs vs Hv _ IH]; cbn [compound total]; [lia|].
  apply Forall_cons_iff in Hok as [[H1 H2] Hok]. specialize (IH Hok). pose proof (total_nonneg _ Hok).
  assert (E : 2 ^ (fgap f + total fs) = 2 ^ fgap f * 2 ^ total fs) by (apply Z.pow_add_r; lia).
  assert (0 < 2 ^ fgap f) by (apply Z.pow_pos_nonneg; lia).
  assert (0 < 2 ^ total fs) by (apply Z.pow_pos_nonneg; lia).
  replace (fwidth f + fgap f + total fs) with (fwidth f + (fgap f + total fs)) by lia.
  rewrite (Z.pow_add_r 2 (fwidth f)) by lia. set (X := 2 ^ (fgap f + total fs)) in *.
  assert (2 ^ total fs <= X) by nia. nia.
Qed.

Lemma compound_bit fs vs j f v k : Forall field_ok fs -> vals_ok fs vs ->
  nth_error fs j = Some f -> nth_error vs j = Some v -> shift_at fs j <= k < shift_at fs j + fwidth f ->
  Z.testbit (compound fs vs) k = Z.testbit v (k - shift_at fs j).
Proof.
  intros Hok Hv. revert j. induction Hv as [|g u fs vs Hu Hvs IH]; intros j Hf Hvj Hk; [destruct j; discriminate|].
  pose proof Hok as Hok0. apply Forall_cons_iff in Hok as [[H1 H2] Hok]. pose proof (total_nonneg _ Hok).
  pose proof (compound_range _ _ Hok Hvs) as Hc.
  assert (Hc2 : compound fs vs < 2 ^ (fgap g + total fs)).
  { eapply Z.lt_le_trans; [apply Hc|]. apply Z.pow_le_mono_r; lia. }
  cbn [compound]. rewrite <- lor_shift_add by lia. rewrite Z.lor_spec.
  destruct j as [|j]; cbn [nth_error] in *.
  - assert (g = f) by congruence. assert (u = v) by congruence. subst g u.
    unfold shift_at in *. cbn [nth_error skipn] in *.
    rewrite Z.mul_pow2_bits by lia. rewrite (testbit_small (compound fs vs) (fgap f + total fs)) by lia.
    apply orb_false_r.
  - rewrite shift_at_S in *. pose proof (nth_field_ok fs j f Hok Hf) as (Hfo & Hs & Ht).
    rewrite Z.mul_pow2_bits_low by lia. cbn [orb]. apply IH; assumption.
Qed.

Lemma field_values_compound fs vs : Forall field_ok fs -> vals_ok fs vs -> field_values fs (compound fs vs) = vs.
Proof.
  intros Hok Hv. assert (L : length fs = length vs) by (clear Hok; induction Hv; cbn; lia).
  apply nth_error_ext; [rewrite field_values_length; assumption|].
  intros j Hj. rewrite field_values_length in Hj.
  destruct (nth_error fs j) as [f|] eqn:Ef; [|apply nth_error_None in Ef; lia].
  destruct (nth_error vs j) as [v|] eqn:Ev; [|apply nth_error_None in Ev; lia].
  rewrite (nth_field_values _ _ _ _ Ef). f_equal.
  pose proof (nth_field_ok fs j f Hok Ef) as ([Hw _] & Hs & Ht).
  assert (Hvr : 0 <= v < 2 ^ fwidth f).
  { clear - Hv Ef Ev. revert j Ef Ev. induction Hv; intros [|j] Ef Ev; cbn in *; try discriminate.
    - congruence.
    - eapply IHHv; eassumption. }
  apply Z.bits_inj'. intros k Hk. destruct (Z.ltb_spec k (fwidth f)).
  - rewrite Z.mod_pow2_bits_low by lia. rewrite Z.div_pow2_bits by lia.
    rewrite (compound_bit fs vs j f v) by (try assumption; lia). f_equal. lia.
  - rewrite Z.mod_pow2_bits_high by lia. symmetry. apply testbit_small with (fwidth f); lia.
Qed.

(* setting a field that is zero *)
Lemma compound_set fs vs vs' j f v : Forall field_ok fs -> vals_ok fs vs -> nth_error fs j = Some f ->
  0 <= v < 2 ^ fwidth f -> nth_error vs j = Some 0 -> set_nth vs j v = Some vs' ->
  vals_ok fs vs' /\ Z.lor (compound fs vs) (v * 2 ^ shift_at fs j) = compound fs vs'.
Proof.
  intros Hok Hvs. revert j vs'. induction Hvs as [|g u fs vs Hu Hvs IH]; intros j vs' Hf Hv H0 Hs; [destruct j; discriminate|].
  pose proof Hok as Hok0. apply Forall_cons_iff in Hok as [[H1 H2] Hok]. pose proof (total_nonneg _ Hok).
  pose proof (compound_range _ _ Hok Hvs) as Hc.
  assert (Hle : 2 ^ total fs <= 2 ^ (fgap g + total fs)) by (apply Z.pow_le_mono_r; lia).
  destruct j as [|j]; cbn [nth_error set_nth] in *.
  - assert (g = f) by congruence. assert (u = 0) by congruence. assert (vs' = v :: vs) by congruence. subst g u vs'.
    split; [constructor; assumption|]. unfold shift_at. cbn [nth_error skipn compound].
    rewrite Z.mul_0_l, Z.add_0_l. rewrite Z.lor_comm. apply lor_shift_add; lia.
  - destruct (set_nth vs j v) as [vs1|] eqn:E; [|discriminate]. cbn [obind] in Hs.
    assert (vs' = u :: vs1) by congruence. subst vs'.
    destruct (IH Hok j vs1 Hf Hv H0 E) as [Hv1 Hl]. split; [constructor; assumption|].
    rewrite shift_at_S. cbn [compound].
    pose proof (compound_range _ _ Hok Hv1) as Hc1.
    rewrite <- !lor_shift_add by lia. rewrite <- Z.lor_assoc. f_equal. exact Hl.
Qed.

Lemma compound_zeros fs : compound fs (map (fun _ => 0) fs) = 0.
Proof. induction fs; cbn [compound map]; [reflexivity|]. rewrite IHfs. lia. Qed.

(* ---- the functions of bit_field.hpp ---- *)

Definition field_int (f : bit_field) : Prop := in_range t_int (fwidth f) /\ in_range t_int (fgap f).

Lemma valid_loop_some fs : Forall field_int fs -> forall t r, 0 <= t < 2 ^ 31 -> valid_loop fs t = Some r ->
  Forall field_ok fs /\ r = t + total fs /\ r < 2 ^ 31.
Proof.
  assert (Hadd : forall a b c, 0 <= a < 2 ^ 31 -> 0 <= b -> in_range t_int b ->
      try_int_add t_int t_int a b = Some (true, c) -> c = a + b /\ c < 2 ^ 31).
  { intros a b c Ha Hb Hbr Hc.
    rewrite try_int_add_spec in Hc; try assumption; try (cbn; lia);
      try (unfold in_range, imin, imax; cbn; lia).
    unfold add_res in Hc. destruct (in_rangeb t_int (a + b)) eqn:E3; [|discriminate].
    apply in_rangeb_spec in E3. unfold in_range, imin, imax in E3. cbn in E3.
    assert (c = a + b) by congruence. lia. }
  induction 1 as [|f fs [Hi1 Hi2] Hi IH]; intros t r Ht H; cbn [valid_loop total] in *.
  - assert (r = t) by congruence. split; [constructor|lia].
  - destruct ((fwidth f <? 1) || (fgap f <? 0)) eqn:E; [discriminate|].
    destruct (try_int_add t_int t_int t (fwidth f)) as [[[|] t1]|] eqn:E1; try discriminate.
    destruct (try_int_add t_int t_int t1 (fgap f)) as [[[|] t2]|] eqn:E2; try discriminate.
    apply Hadd in E1; [|lia|lia|assumption]. apply Hadd in E2; [|lia|lia|assumption].
    destruct (IH t2 r) as (G1 & G2 & G3); [lia|assumption|].
    split; [constructor; [split; lia|assumption]|]. lia.
Qed.

Lemma valid_bit_fields_spec fs avail : Forall field_int fs -> valid_bit_fields fs avail = true ->
  Forall field_ok fs /\ total fs <= avail /\ total fs < 2 ^ 31.
Proof.
  intros Hi H. unfold valid_bit_fields in H. destruct (valid_loop fs 0) as [r|] eqn:E; [|discriminate].
  apply valid_loop_some in E; [|assumption|lia]. destruct E as (A & B & C). split; [assumption|]. lia.
Qed.

Lemma valid_loop_total fs : Forall field_int fs -> Forall field_ok fs -> forall t, 0 <= t -> t + total fs < 2 ^ 31 ->
  valid_loop fs t = Some (t + total fs).
Proof.
  induction 1 as [|f fs [Hi1 Hi2] Hi IH]; intros Hok t Ht Hr; cbn [valid_loop total] in *; [f_equal; lia|].
  apply Forall_cons_iff in Hok as [[H1 H2] Hok]. pose proof (total_nonneg _ Hok).
  replace ((fwidth f <? 1) || (fgap f <? 0)) with false by lia.
  rewrite try_int_add_spec by (try assumption; try (cbn; lia); unfold in_range, imin, imax; cbn; lia).
  rewrite add_res_true by (unfold in_range, imin, imax; cbn; lia).
  rewrite try_int_add_spec by (try assumption; try (cbn; lia); unfold in_range, imin, imax; cbn; lia).
  rewrite add_res_true by (unfold in_range, imin, imax; cbn; lia).
  rewrite IH by (try assumption; lia). f_equal. lia.
Qed.

Lemma shift_loop_ok fs : Forall field_ok fs -> forall o, 0 <= o -> o + total fs < 2 ^ 31 ->
  shift_loop fs o = Some (o + total fs).
Proof.
  induction 1 as [|f fs [H1 H2] Hok IH]; intros o Ho Hr; cbn [shift_loop total] in *; [f_equal; lia|].
  pose proof (total_nonneg _ Hok).
  rewrite iadd_ok by lia. cbn [obind]. rewrite iadd_ok by lia. cbn [obind]. rewrite IH by lia. f_equal. lia.
Qed.

Lemma get_shift_ok fs j f : Forall field_ok fs -> total fs < 2 ^ 31 -> nth_error fs j = Some f ->
  get_bit_field_shift fs (Z.of_nat j) = Some (shift_at fs j).
Proof.
  intros Hok Ht Hf. unfold get_bit_field_shift. replace (0 <=? Z.of_nat j) with true by lia.
  rewrite Nat2Z.id, Hf. cbn [obind].
  pose proof (nth_field_ok fs j f Hok Hf) as ([H1 H2] & Hs & Hsw). unfold shift_at in *. rewrite Hf in *.
  assert (Hok2 : Forall field_ok (skipn (S j) fs)).
  { rewrite <- (firstn_skipn (S j) fs) in Hok. apply Forall_app in Hok. apply Hok. }
  pose proof (total_nonneg _ Hok2).
  rewrite shift_loop_ok by (try assumption; lia). cbn [obind]. rewrite iadd_ok by lia. f_equal. lia.
Qed.

Lemma get_width_ok fs j f : nth_error fs j = Some f -> get_bit_field_width fs (Z.of_nat j) = Some (fwidth f).
Proof.
  intros Hf. unfold get_bit_field_width. replace (0 <=? Z.of_nat j) with true by lia. now rewrite Nat2Z.id, Hf.
Qed.

Lemma widest_loop_spec fs : forall w, w <= widest_loop fs w /\
  (forall f, In f fs -> fwidth f <= widest_loop fs w) /\
  (widest_loop fs w = w \/ exists f, In f fs /\ widest_loop fs w = fwidth f).
Proof.
  induction fs as [|f fs IH]; intros w; cbn [widest_loop].
  - split; [lia|]. split; [intros ? []|now left].
  - destruct (Z.leb_spec (fwidth f) w).
    + destruct (IH w) as (A & B & C). split; [assumption|]. split.
      * intros g [<-|Hg]; [lia|now apply B].
      * destruct C as [C|(g & Hg & C)]; [now left|]. right. exists g. split; [now right|assumption].
    + destruct (IH (fwidth f)) as (A & B & C). split; [lia|]. split.
      * intros g [<-|Hg]; [lia|now apply B].
      * right. destruct C as [C|(g & Hg & C)]; [exists f; split; [now left|assumption]|].
        exists g. split; [now right|assumption].
Qed.
