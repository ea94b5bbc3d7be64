(* Consequences of what key bindings must do *)
From Coq Require Import List ZArith Bool Lia Sorted.
From Verif Require Import KeyBindModel KeyBindSpec KeyBindProofs KeyBindProofs2.
Import ListNotations.
Open Scope Z_scope.

(* all entries are as they must be *)
Fixpoint fitting (e : henv) (l : log) : Prop := match l with [] => True | en :: l => fits e l en /\ fitting e l end.

Lemma lawful_app : forall l2 l, lawful (l2 ++ l) -> lawful l.
Proof. induction l2 as [|en l2 IH]; intros l H; [exact H|]. apply IH. apply H. Qed.

Lemma run_fitting : forall e, quiet e -> forall evs s l ens, kbrel e s l -> fitting e l -> run e s evs = map Some ens -> lawful (rev ens ++ l) ->
  fitting e (rev ens ++ l) /\ map en_event ens = evs.
Proof.
  intros e Qu. induction evs as [|ev evs IH]; intros s l ens R F E L.
  - destruct ens as [|en ens]; [|discriminate]. cbn. auto.
  - cbn [run] in E. destruct (step e s ev) as [[ok0 s20]|] eqn:St; [|destruct ens as [|? [|]]; discriminate].
    destruct ens as [|en ens]; [discriminate|]. cbn [map] in E. injection E as E1 E2.
    cbn [rev] in L. rewrite <- app_assoc in L. cbn [app] in L. pose proof (lawful_app _ _ L) as L1. destruct L1 as [A _].
    assert (Ev : en_event en = ev) by (rewrite <- E1; reflexivity). rewrite Ev in A.
    destruct (step_ok e Qu s l ev R A) as (ok & s2 & cs & E3 & Ec & Ft & R2). rewrite St in E3. injection E3 as -> ->.
    rewrite Ec, skipn_app, skipn_all, Nat.sub_diag in E1. cbn [skipn app] in E1.
    destruct (IH s2 (en :: l) ens) as (G1 & G2); [rewrite <- E1; exact R2|split; [rewrite <- E1; exact Ft|exact F]|exact E2|exact L|].
    cbn [rev map]. rewrite <- app_assoc. cbn [app]. split; [exact G1|f_equal; assumption].
Qed.

Lemma run_log : forall e evs l, quiet e -> run e kb_init evs = map Some (rev l) -> lawful l -> fitting e l /\ map en_event (rev l) = evs.
Proof.
  intros e evs l Qu E L. destruct (run_fitting e Qu evs kb_init [] (rev l) (kbrel_init e) I E) as (A & B).
  - rewrite rev_involutive, app_nil_r. exact L.
  - rewrite rev_involutive, app_nil_r in A. auto.
Qed.

(* ---- balance ---- *)

Lemma balance_app : forall a b k o, balance (a ++ b) k o = match balance a k o with Some o2 => balance b k o2 | None => None end.
Proof.
  induction a as [|c a IH]; intros b k o; [reflexivity|]. cbn [app balance]. destruct (same_key (c_key c) k); [|apply IH].
  destruct o as [h|]; [destruct (_ && _); [apply IH|reflexivity]|destruct (c_down c); [apply IH|reflexivity]].
Qed.

Lemma balance_other : forall cs k o, ~ In k (map c_key cs) -> balance cs k o = Some o.
Proof.
  induction cs as [|c cs IH]; intros k o N; [reflexivity|]. cbn [balance]. replace (same_key (c_key c) k) with false; [apply IH; intros C; apply N; right; exact C|].
  symmetry. apply same_key_neq. intros <-. apply N. left. reflexivity.
Qed.

Lemma sorted_once : forall l : list (key * Z), StronglySorted (fun a b => key_less (fst a) (fst b) = true) l -> NoDup (map fst l).
Proof.
  induction 1 as [|a l H IH F]; [constructor|]. cbn [map]. constructor; [|exact IH]. intros C. apply in_map_iff in C. destruct C as (b & E & I).
  rewrite Forall_forall in F. specialize (F b I). rewrite E in F. unfold key_less in F. rewrite Z.gtb_ltb, !Z.ltb_irrefl in F. discriminate.
Qed.

Lemma nodup_app_l : forall A (a b : list A), NoDup (a ++ b) -> NoDup a.
Proof. induction a as [|x a IH]; intros b H; [constructor|]. inversion H; subst. constructor; [rewrite in_app_iff in *; tauto|eapply IH; eauto]. Qed.

Lemma balance_release : forall cs k h, NoDup (map c_key cs) -> Forall (fun c => c_down c = false) cs -> In (k, h) (map (fun c => (c_key c, c_handler c)) cs) ->
  balance cs k (Some h) = Some None.
Proof.
  induction cs as [|c cs IH]; intros k h N F I; [contradiction|]. inversion N as [|? ? Nk N']; subst. inversion F as [|? ? Fd F']; subst. cbn [balance].
  destruct I as [I|I].
  - injection I as <- <-. rewrite same_key_refl, Fd, Z.eqb_refl. cbn [negb andb]. apply balance_other. exact Nk.
  - replace (same_key (c_key c) k) with false; [apply IH; auto|]. symmetry. apply same_key_neq. intros E. apply Nk. rewrite E.
    apply in_map_iff in I. destruct I as (c2 & E2 & I2). injection E2 as <- <-. apply in_map. exact I2.
Qed.

Lemma released_keys : forall l cs ok, calls_released l cs ok -> NoDup (map c_key cs) /\
  (forall k h, In (k, h) (map (fun c => (c_key c, c_handler c)) cs) -> active l k = Some h) /\
  (ok = true -> forall k h, active l k = Some h -> In (k, h) (map (fun c => (c_key c, c_handler c)) cs)).
Proof.
  intros l cs ok (rest & R1 & R2 & R3 & R4). split; [|split].
  - apply sorted_once in R2. rewrite map_app, map_map in R2. cbn [fst] in R2. apply nodup_app_l in R2. exact R2.
  - intros k h I. apply R1. apply in_or_app. left. exact I.
  - intros -> k h A. apply R1 in A. destruct R4 as [-> _]. rewrite app_nil_r in A. exact A.
Qed.

Lemma called_in : forall cs k, existsb (fun c => same_key (c_key c) k) cs = true <-> exists h, In (k, h) (map (fun c => (c_key c, c_handler c)) cs).
Proof.
  intros cs k. rewrite existsb_exists. split.
  - intros (c & I & E). apply same_key_eq in E. exists (c_handler c). apply in_map_iff. exists c. subst k. auto.
  - intros (h & I). apply in_map_iff in I. destruct I as (c & E & I). injection E as <- _. exists c. rewrite same_key_refl. auto.
Qed.

Lemma released_balance : forall l cs ok k, calls_released l cs ok ->
  balance cs k (active l k) = Some (if ok || existsb (fun c => same_key (c_key c) k) cs then None else active l k).
Proof.
  intros l cs ok k R. destruct (released_keys l cs ok R) as (N & K1 & K2). assert (Fd : Forall (fun c => c_down c = false) cs) by (destruct R as (? & _ & _ & R & _); exact R).
  destruct (existsb _ cs) eqn:X.
  - rewrite orb_true_r. apply called_in in X. destruct X as (h & X). rewrite (K1 k h X). apply balance_release; assumption.
  - rewrite orb_false_r, balance_other.
    + destruct ok; [|reflexivity]. destruct (active l k) as [h|] eqn:A; [|reflexivity]. apply (K2 eq_refl) in A.
      assert (existsb (fun c => same_key (c_key c) k) cs = true) by (apply called_in; eauto). congruence.
    + intros C. apply in_map_iff in C. destruct C as (c & E & I). assert (existsb (fun c => same_key (c_key c) k) cs = true); [|congruence].
      apply existsb_exists. exists c. rewrite E, same_key_refl. auto.
Qed.

Lemma one_balance : forall cs ok k h d k2 o, calls_one cs ok k2 h d ->
  balance cs k o = if same_key k2 k then match h with Some x => match o with None => if d then Some (Some x) else None | Some y => if negb d && (x =? y) then Some None else None end | None => Some o end else Some o.
Proof.
  intros cs ok k h d k2 o C. destruct h as [h|]; cbn [calls_one] in C; [subst cs|destruct C as [-> _]; destruct (same_key k2 k); reflexivity].
  cbn [balance c_key c_down c_handler]. destruct (same_key k2 k); [|reflexivity]. destruct o; [destruct (_ && _); reflexivity|destruct d; reflexivity].
Qed.

Lemma active_held : forall l k h, active l k = Some h -> blurring l = false -> held l k = true.
Proof.
  induction l as [|en l IH]; intros k h A B; [discriminate|]. cbn [active held blurring] in *. destruct (forgets en l k) eqn:F; [discriminate|].
  destruct (en_event en) as [|b|k2 t|k2 t| |] eqn:Ev; try (eapply IH; eauto; fail).
  - destruct (same_key k2 k); cbn [andb] in A; [|eapply IH; eauto]. destruct (held l k) eqn:Hd; cbn [negb] in A.
    + revert Hd. clear. induction l as [|en l IH]; [discriminate|]. cbn [held has_binding]. destruct (forgets en l k); [discriminate|].
      destruct (en_event en); intros H; rewrite ?(IH H), ?orb_true_r; try reflexivity.
      * destruct (same_key k0 k); [rewrite H; reflexivity|rewrite (IH H); reflexivity].
      * destruct (same_key k0 k); [discriminate|rewrite (IH H); reflexivity].
    + unfold selected in A. destruct (has_binding l k); [reflexivity|discriminate].
  - destruct (same_key k2 k); [discriminate|]. eapply IH; eauto.
  - unfold forgets in F. rewrite Ev in F. destruct (en_ok en); discriminate.
  - unfold forgets in F. rewrite Ev in F. destruct (blurring l); [destruct (en_ok en); discriminate|]. eapply IH; eauto.
Qed.

Lemma balanced : forall e l k, fitting e l -> lawful l -> undisturbed l -> balance (all_calls l) k None = Some (active l k).
Proof.
  induction l as [|en l IH]; intros k F L U; [reflexivity|]. destruct F as [[_ Ft] F], L as [A L], U as [U0 U]. rewrite all_calls_cons, balance_app, (IH k F L U).
  cbn [active]. unfold forgets. destruct (en_event en) as [|b|k2 t|k2 t| |] eqn:Ev; cbn [allowed] in A.
  - destruct Ft as [-> _]. reflexivity.
  - destruct Ft as [-> _]. cbn [balance]. destruct (en_ok en); [|reflexivity]. cbn [andb]. destruct (same_key (b_key b) k) eqn:K; [|reflexivity].
    apply same_key_eq in K. subst k. rewrite U0; reflexivity.
  - rewrite (one_balance _ _ k _ _ _ _ Ft). destruct (same_key k2 k) eqn:K; [|reflexivity]. apply same_key_eq in K. subst k2. cbn [andb].
    destruct (held l k) eqn:Hd; cbn [negb].
    + unfold selected. rewrite Hd, andb_false_r. reflexivity.
    + destruct (active l k) as [h|] eqn:Ac; [pose proof (active_held l k h Ac (proj1 A)); congruence|]. destruct (selected l k t (en_mode en)); reflexivity.
  - rewrite (one_balance _ _ k _ _ _ _ Ft). destruct (same_key k2 k) eqn:K; [|reflexivity]. apply same_key_eq in K. subst k2.
    destruct (active l k) as [h|] eqn:Ac.
    + rewrite (active_held l k h Ac (proj1 A)). rewrite Z.eqb_refl. reflexivity.
    + destruct (held l k); reflexivity.
  - rewrite (released_balance l _ _ k Ft). destruct (_ || _); reflexivity.
  - destruct (blurring l) eqn:B; cbn [andb].
    + rewrite (released_balance l _ _ k Ft). destruct (_ || _); reflexivity.
    + destruct Ft as [-> _]. reflexivity.
Qed.
