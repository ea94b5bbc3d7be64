(* Lemmas about key bindings *)
From Coq Require Import List ZArith Bool Sorted Lia.
From Verif Require Import KeyBindModel KeyBindSpec ArrLib.
Import ListNotations.
Open Scope Z_scope.

(* ---- keys ---- *)

Lemma same_key_eq : forall a b, same_key a b = true <-> a = b.
Proof.
  intros [a1 a2] [b1 b2]. unfold same_key. cbn. rewrite andb_true_iff, !Z.eqb_eq. split; [intros [-> ->]; reflexivity|intros E; injection E; auto].
Qed.
Lemma same_key_refl : forall a, same_key a a = true.
Proof. intros a. apply same_key_eq. reflexivity. Qed.
Lemma same_key_neq : forall a b, same_key a b = false <-> a <> b.
Proof. intros a b. rewrite <- same_key_eq. destruct (same_key a b); split; congruence. Qed.
Lemma same_key_sym : forall a b, same_key a b = same_key b a.
Proof.
  intros a b. destruct (same_key a b) eqn:E.
  - apply same_key_eq in E. subst. symmetry. apply same_key_refl.
  - apply same_key_neq in E. symmetry. apply same_key_neq. congruence.
Qed.
Lemma key_less_spec : forall a b, key_less a b = true <-> fst a < fst b \/ (fst a = fst b /\ snd a < snd b).
Proof.
  intros [a1 a2] [b1 b2]. unfold key_less. cbn. destruct (a1 <? b1) eqn:E; [apply Z.ltb_lt in E; split; auto|]. apply Z.ltb_ge in E.
  destruct (a1 >? b1) eqn:E2.
  - rewrite Z.gtb_ltb in E2. apply Z.ltb_lt in E2. split; [discriminate|lia].
  - rewrite Z.gtb_ltb in E2. apply Z.ltb_ge in E2. rewrite Z.ltb_lt. lia.
Qed.
Lemma key_less_irrefl : forall a, key_less a a <> true.
Proof. intros a. rewrite key_less_spec. lia. Qed.
Lemma key_less_trans : forall a b c, key_less a b = true -> key_less b c = true -> key_less a c = true.
Proof. intros a b c. rewrite !key_less_spec. lia. Qed.
Lemma key_less_total : forall a b, key_less a b = true \/ a = b \/ key_less b a = true.
Proof.
  intros [a1 a2] [b1 b2]. rewrite !key_less_spec. cbn.
  destruct (Z.lt_trichotomy a1 b1) as [|[->|]]; [left; lia| |right; right; lia].
  destruct (Z.lt_trichotomy a2 b2) as [|[->|]]; [left; lia|right; left; reflexivity|right; right; lia].
Qed.

Definition kless (a b : key) : Prop := key_less a b = true.
Definition ordered (m : list (key * slot)) : Prop := StronglySorted kless (map fst m).

Lemma ordered_nodup : forall ks, StronglySorted kless ks -> NoDup ks.
Proof.
  intros ks H. induction H as [|k ks H IH F]; constructor; [|exact IH]. intros I. rewrite Forall_forall in F. apply (key_less_irrefl k). apply F. exact I.
Qed.

(* ---- maps ---- *)

Lemma find_put : forall m k s k', find_slot (put_slot m k s) k' = if same_key k k' then Some s else find_slot m k'.
Proof.
  induction m as [|[k2 s2] m IH]; intros k s k'; [reflexivity|]. cbn [put_slot]. destruct (same_key k2 k) eqn:E.
  - apply same_key_eq in E. subst k2. cbn. destruct (same_key k k'); reflexivity.
  - destruct (key_less k k2); [reflexivity|]. cbn [find_slot]. rewrite IH. destruct (same_key k2 k') eqn:E2; [|reflexivity].
    destruct (same_key k k') eqn:E3; [|reflexivity]. apply same_key_eq in E2, E3. apply same_key_neq in E. congruence.
Qed.

Lemma find_in : forall m k, (exists s, find_slot m k = Some s) <-> In k (map fst m).
Proof.
  induction m as [|[k2 s2] m IH]; intros k; cbn [find_slot map fst In]; [split; [intros (s & C); discriminate|tauto]|].
  destruct (same_key k2 k) eqn:E.
  - apply same_key_eq in E. split; eauto.
  - apply same_key_neq in E. rewrite IH. tauto.
Qed.

Lemma put_existing : forall m k s s0, ordered m -> find_slot m k = Some s0 -> map fst (put_slot m k s) = map fst m.
Proof.
  induction m as [|[k2 s2] m IH]; intros k s s0 O F; [discriminate|]. cbn [find_slot put_slot] in *. destruct (same_key k2 k) eqn:E.
  - apply same_key_eq in E. subst. reflexivity.
  - inversion O as [|? ? O' A]; subst. destruct (key_less k k2) eqn:L.
    + exfalso. assert (I : In k (map fst m)) by (apply find_in; eauto). rewrite Forall_forall in A. apply A in I.
      apply (key_less_irrefl k). eapply key_less_trans; eauto.
    + cbn [map fst]. f_equal. eapply IH; eauto.
Qed.

Lemma put_keys : forall m k s k', In k' (map fst (put_slot m k s)) <-> k' = k \/ In k' (map fst m).
Proof.
  intros m k s k'. rewrite <- !find_in, find_put. destruct (same_key k k') eqn:E.
  - apply same_key_eq in E. split; eauto.
  - apply same_key_neq in E. split; [eauto|]. intros [->|H]; [congruence|exact H].
Qed.

Lemma put_ordered : forall m k s, ordered m -> ordered (put_slot m k s).
Proof.
  unfold ordered. induction m as [|[k2 s2] m IH]; intros k s O; [repeat constructor|]. cbn [put_slot]. inversion O as [|? ? O' A]; subst.
  destruct (same_key k2 k) eqn:E; [apply same_key_eq in E; subst; constructor; assumption|]. destruct (key_less k k2) eqn:L.
  - constructor; [exact O|]. cbn [map fst]. constructor; [exact L|]. rewrite Forall_forall in A |- *. intros x I. eapply key_less_trans; [exact L|]. apply A. exact I.
  - cbn [map fst]. constructor; [apply IH; exact O'|]. rewrite Forall_forall in A |- *. intros x I. apply put_keys in I. destruct I as [->|I]; [|apply A; exact I].
    apply same_key_neq in E. destruct (key_less_total k2 k) as [T|[T|T]]; [exact T|contradiction|congruence].
Qed.

Lemma find_set_handler : forall m mode mult h mode' mult',
  find_handler (set_handler m mode mult h) mode' mult' = if (mode =? mode') && (mult =? mult') then Some h else find_handler m mode' mult'.
Proof.
  induction m as [|[[a b] c] m IH]; intros mode mult h mode' mult'; [reflexivity|]. cbn [set_handler].
  destruct ((a =? mode) && (b =? mult)) eqn:E.
  - apply andb_true_iff in E. rewrite !Z.eqb_eq in E. destruct E as [-> ->]. cbn. destruct ((mode =? mode') && (mult =? mult')); reflexivity.
  - cbn [find_handler]. rewrite IH. destruct ((a =? mode') && (b =? mult')) eqn:E2; [|reflexivity].
    destruct ((mode =? mode') && (mult =? mult')) eqn:E3; [|reflexivity]. exfalso.
    apply andb_true_iff in E2, E3. rewrite !Z.eqb_eq in E2, E3. destruct E2 as [-> ->], E3 as [-> ->]. rewrite !Z.eqb_refl in E. discriminate.
Qed.

Definition top (m : list (Z * Z * Z)) (z : Z) : Z :=
  fold_left (fun max e => let '(_, mult, _) := e in if mult <=? max then max else mult) m z.
Lemma top_max : forall m z, 0 <= z -> top m z = Z.max z (top m 0) /\ 0 <= top m 0.
Proof.
  induction m as [|[[a b] c] m IH]; intros z P; [cbn; lia|].
  change (top ((a, b, c) :: m) z) with (top m (if b <=? z then z else b)). change (top ((a, b, c) :: m) 0) with (top m (if b <=? 0 then 0 else b)).
  destruct (IH (if b <=? z then z else b)) as [-> P2]; [destruct (b <=? z) eqn:A; rewrite ?Z.leb_le, ?Z.leb_gt in *; lia|].
  destruct (IH (if b <=? 0 then 0 else b)) as [-> _]; [destruct (b <=? 0) eqn:A; rewrite ?Z.leb_le, ?Z.leb_gt in *; lia|].
  destruct (b <=? z) eqn:A, (b <=? 0) eqn:B; rewrite ?Z.leb_le, ?Z.leb_gt in *; lia.
Qed.
Lemma top_cons : forall a b c m, top ((a, b, c) :: m) 0 = Z.max b (top m 0).
Proof.
  intros a b c m. change (top ((a, b, c) :: m) 0) with (top m (if b <=? 0 then 0 else b)).
  destruct (top_max m (if b <=? 0 then 0 else b)) as [-> P]; [destruct (b <=? 0) eqn:A; rewrite ?Z.leb_le, ?Z.leb_gt in *; lia|].
  destruct (b <=? 0) eqn:B; rewrite ?Z.leb_le, ?Z.leb_gt in *; lia.
Qed.
Lemma top_set : forall m mode mult h, top (set_handler m mode mult h) 0 = Z.max mult (top m 0).
Proof.
  induction m as [|[[a b] c] m IH]; intros mode mult h; [cbn [set_handler]; apply top_cons|]. cbn [set_handler].
  destruct ((a =? mode) && (b =? mult)) eqn:E; rewrite !top_cons; [|rewrite IH; lia].
  apply andb_true_iff in E. rewrite !Z.eqb_eq in E. lia.
Qed.

(* ---- the specification ---- *)

Lemma unbound_quiet : forall l k, has_binding l k = false -> presses l k = [] /\ held l k = false /\ active l k = None /\ forall m n, bound l k m n = None.
Proof.
  induction l as [|en l IH]; intros k H; [repeat split; reflexivity|]. cbn [has_binding] in H. apply orb_false_iff in H. destruct H as [H1 H2].
  destruct (IH k H2) as (P & Hd & A & B). cbn [presses held active bound]. rewrite H2, Hd, P, A. unfold selected. rewrite H2. cbn [andb].
  destruct (forgets en l k); destruct (en_event en) as [|b|k2 t|k2 t| |]; rewrite ?andb_false_r; cbn [negb andb];
    try (destruct (same_key k2 k)); repeat split; auto; intros m n; rewrite ?andb_assoc, ?H1; cbn [andb]; auto.
Qed.

Lemma mult_pos : forall mx ps, ps <> [] -> 1 <= multiplicity_of mx ps.
Proof.
  intros mx ps. induction ps as [|[t m] ps IH]; intros N; [contradiction|]. cbn [multiplicity_of]. destruct ps as [|[t2 m2] ps]; [lia|].
  specialize (IH ltac:(discriminate)). destruct (_ && _); lia.
Qed.
Lemma mult_le : forall mx ps, multiplicity_of mx ps <= Z.max 1 mx.
Proof.
  intros mx ps. destruct ps as [|[t m] ps]; cbn [multiplicity_of]; [lia|]. destruct ps as [|[t2 m2] ps]; [lia|].
  destruct (_ && _) eqn:E; [|lia]. apply andb_true_iff in E. destruct E as [_ E]. apply Z.ltb_lt in E. lia.
Qed.
Lemma most_nonneg : forall l k, 0 <= most l k.
Proof. induction l as [|en l IH]; intros k; cbn [most]; [lia|]. specialize (IH k). destruct (en_event en); auto. destruct (_ && _); lia. Qed.

Lemma all_calls_cons : forall en l, all_calls (en :: l) = all_calls l ++ en_calls en.
Proof. intros en l. unfold all_calls. cbn [rev]. rewrite flat_map_app. cbn. rewrite app_nil_r. reflexivity. Qed.
Lemma mode_after_app : forall e a b, mode_after e (a ++ b) = fold_left (fun m c => sets_mode e (c_handler c) (c_down c) m) b (mode_after e a).
Proof. intros e a b. unfold mode_after. apply fold_left_app. Qed.
