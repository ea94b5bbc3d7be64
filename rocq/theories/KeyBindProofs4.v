(* The modifier mode *)
From Coq Require Import List ZArith Bool Lia Sorted.
From Verif Require Import KeyBindModel KeyBindSpec KeyBindProofs KeyBindProofs2 KeyBindProofs3.
Import ListNotations.
Open Scope Z_scope.

Lemma run_prefix : forall e a b s, firstn (length a) (run e s (a ++ b)) = run e s a.
Proof.
  induction a as [|ev a IH]; intros b s; [reflexivity|]. cbn [app length run]. destruct (step e s ev) as [[ok s2]|]; [cbn [firstn]; rewrite IH; reflexivity|].
  destruct (length a); reflexivity.
Qed.

(* ---- only simple modes ---- *)

Definition simple_mode (m : Z) : Prop := m = 0 \/ m = 1 \/ m = 2 \/ m = 4 \/ m = 8.
Definition plain_modifiers (ev : event) : Prop := match ev with Bind b => 0 <= b_handler b <= 3 -> b_mode b = 0 | _ => True end.

Lemma modifier_bit_cases : forall h, (0 <= h <= 3 /\ (modifier_bit h = 1 \/ modifier_bit h = 2 \/ modifier_bit h = 4 \/ modifier_bit h = 8)) \/ (~ 0 <= h <= 3 /\ modifier_bit h = 0).
Proof.
  intros h. unfold modifier_bit. destruct (0 <=? h) eqn:A; destruct (h <=? 3) eqn:B; cbn [andb]; rewrite ?Z.leb_le, ?Z.leb_gt in *; [left|right; lia|right; lia|right; lia].
  split; [lia|]. assert (C : h = 0 \/ h = 1 \/ h = 2 \/ h = 3) by lia. destruct C as [->| [->| [->| ->]]]; cbn; lia.
Qed.

Lemma other_handler : forall h d m, ~ 0 <= h <= 3 -> builtin_sets_mode h d m = m.
Proof.
  intros h d m N. destruct (modifier_bit_cases h) as [[C _]|[_ E]]; [contradiction|]. unfold builtin_sets_mode. rewrite E. destruct d; [apply Z.lor_0_r|apply Z.ldiff_0_r].
Qed.

Lemma up_simple : forall h m, simple_mode m -> simple_mode (builtin_sets_mode h false m).
Proof.
  intros h m S. unfold builtin_sets_mode. destruct (modifier_bit_cases h) as [[_ E]|[_ E]].
  - destruct E as [->| [->| [->| ->]]], S as [->| [->| [->| [->| ->]]]]; cbn; unfold simple_mode; lia.
  - rewrite E, Z.ldiff_0_r. exact S.
Qed.
Lemma down_simple : forall h, simple_mode (builtin_sets_mode h true 0).
Proof.
  intros h. unfold builtin_sets_mode. rewrite Z.lor_0_l. unfold simple_mode. destruct (modifier_bit_cases h) as [[_ E]|[_ E]]; lia.
Qed.

Section Modes.
  Variable e : henv.
  Hypothesis Sm : forall h d m, sets_mode e h d m = builtin_sets_mode h d m.

  Lemma ups_simple : forall cs m, Forall (fun c => c_down c = false) cs -> simple_mode m ->
    simple_mode (fold_left (fun m c => sets_mode e (c_handler c) (c_down c) m) cs m).
  Proof.
    induction cs as [|c cs IH]; intros m F S; [exact S|]. inversion F as [|? ? D F']; subst. cbn [fold_left]. apply IH; [exact F'|]. rewrite Sm, D. apply up_simple, S.
  Qed.

  Lemma bound_plain : forall l k m n h, Forall (fun en => plain_modifiers (en_event en)) l -> bound l k m n = Some h -> 0 <= h <= 3 -> m = 0.
  Proof.
    intros l k m n h F. induction F as [|en l P F IH]; [discriminate|]. cbn [bound]. destruct (en_event en) as [|b| | | |]; auto.
    destruct (_ && _) eqn:X; auto. intros E R. injection E as <-. repeat (rewrite andb_true_iff in X). rewrite !Z.eqb_eq in X. destruct X as (_ & _ & <- & _). apply P, R.
  Qed.

  Lemma modes_simple : forall l, fitting e l -> Forall (fun en => plain_modifiers (en_event en)) l -> simple_mode (mode_after e (all_calls l)).
  Proof.
    induction l as [|en l IH]; intros Ft F; [left; reflexivity|]. inversion F as [|? ? P F']; subst. destruct Ft as [[Em Ft] Ft']. specialize (IH Ft' F').
    rewrite all_calls_cons, mode_after_app. destruct (en_event en) as [|b|k t|k t| |] eqn:Ev.
    - destruct Ft as [-> _]. exact IH.
    - destruct Ft as [-> _]. exact IH.
    - unfold calls_one in Ft. destruct (selected l k t (en_mode en)) as [h|] eqn:Se; [|destruct Ft as [-> _]; exact IH]. rewrite Ft. cbn [fold_left c_handler c_down].
      rewrite Sm. destruct (modifier_bit_cases h) as [[R _]|[R _]].
      + unfold selected in Se. destruct (_ && _); [|discriminate]. apply bound_plain in Se; auto. rewrite <- Em, Se. apply down_simple.
      + rewrite other_handler by exact R. exact IH.
    - unfold calls_one in Ft. destruct (if held l k then active l k else None); [|destruct Ft as [-> _]; exact IH]. rewrite Ft. cbn [fold_left c_handler c_down].
      rewrite Sm. apply up_simple, IH.
    - destruct Ft as (? & _ & _ & D & _). apply ups_simple; assumption.
    - destruct (blurring l); [|destruct Ft as [-> _]; exact IH]. destruct Ft as (? & _ & _ & D & _). apply ups_simple; assumption.
  Qed.
End Modes.

(* ---- one modifier key at a time ---- *)

Section One.
  Variable e : henv.
  Variables lk rk : Z -> key.
  Hypothesis Sm : forall h d m, sets_mode e h d m = builtin_sets_mode h d m.
  Notation mf := (modifier_of lk rk).
  Notation mode_of l := (mode_after e (all_calls l)).

  Definition base : log := rev (map (fun ev => Entry ev 0 [] true) (builtin_events lk rk)).

  Lemma base_run : run e kb_init (builtin_events lk rk) = map Some (rev base).
  Proof. reflexivity. Qed.

  Record mi (l : log) : Prop := {
    mi_bound : forall k h, mf k = Some h -> has_binding l k = true /\ most l k = 1 /\ forall n, bound l k 0 n = if n =? 1 then Some h else None;
    mi_other : forall k m n h, mf k = None -> bound l k m n = Some h -> ~ 0 <= h <= 3;
    mi_active : forall k h, mf k = None -> active l k = Some h -> ~ 0 <= h <= 3;
    mi_mod : forall k h x, mf k = Some h -> active l k = Some x -> x = h /\ mode_of l = 2 ^ h;
    mi_zero : (forall k, mf k <> None -> active l k = None) -> mode_of l = 0;
    mi_one : forall k1 k2, mf k1 <> None -> mf k2 <> None -> active l k1 <> None -> active l k2 <> None -> k1 = k2;
    mi_pressed : blurring l = false -> forall k, mf k <> None -> (active l k <> None <-> pressed l k = true) /\ held l k = pressed l k;
    mi_blur : blurring l = true -> forall k, pressed l k = false
  }.

  Lemma mf_range : forall k h, mf k = Some h -> 0 <= h <= 3.
  Proof. intros k h F. apply find_some in F. destruct F as [I _]. cbn in I. lia. Qed.

  Lemma base_mi : mi base.
  Proof.
    assert (Ac : forall k, active base k = None).
    { intros k. cbn. repeat match goal with |- context [if ?b then None else _] => destruct b; [reflexivity|] end. reflexivity. }
    constructor.
    - intros k h. unfold modifier_of. cbn.
      destruct (same_key (rk 3) k), (same_key (lk 3) k), (same_key (rk 2) k), (same_key (lk 2) k), (same_key (rk 1) k), (same_key (lk 1) k), (same_key (rk 0) k), (same_key (lk 0) k);
        cbn; intros X; try discriminate X; injection X as <-; (split; [reflexivity|]); (split; [reflexivity|]); intros [|[]|]; reflexivity.
    - intros k m n h. unfold modifier_of. cbn.
      destruct (same_key (rk 3) k), (same_key (lk 3) k); try discriminate; destruct (same_key (rk 2) k), (same_key (lk 2) k); try discriminate;
      destruct (same_key (rk 1) k), (same_key (lk 1) k); try discriminate; destruct (same_key (rk 0) k), (same_key (lk 0) k); discriminate.
    - intros k h _. rewrite Ac. discriminate.
    - intros k h x _. rewrite Ac. discriminate.
    - reflexivity.
    - intros k1 k2 _ _ C. rewrite Ac in C. contradiction.
    - intros _ k _. rewrite Ac. split; [cbn; split; [contradiction|discriminate]|]. cbn.
      repeat match goal with |- context [if ?b then false else _] => destruct b; [reflexivity|] end. reflexivity.
    - discriminate.
  Qed.

  Lemma mult_one : forall p ps, multiplicity_of 1 (p :: ps) = 1.
  Proof.
    intros p ps. pose proof (mult_pos 1 (p :: ps) ltac:(discriminate)). pose proof (mult_le 1 (p :: ps)). lia.
  Qed.

  (* folding over releases *)
  Lemma fold_zero : forall cs, Forall (fun c => c_down c = false) cs -> fold_left (fun m c => sets_mode e (c_handler c) (c_down c) m) cs 0 = 0.
  Proof.
    induction cs as [|c cs IH]; intros F; [reflexivity|]. inversion F as [|? ? D F']; subst. cbn [fold_left]. rewrite Sm, D. unfold builtin_sets_mode. rewrite Z.ldiff_0_l. apply IH, F'.
  Qed.
  Lemma fold_others : forall cs m, (forall c, In c cs -> ~ 0 <= c_handler c <= 3) -> fold_left (fun m c => sets_mode e (c_handler c) (c_down c) m) cs m = m.
  Proof.
    induction cs as [|c cs IH]; intros m N; [reflexivity|]. cbn [fold_left]. rewrite Sm, other_handler by (apply N; left; reflexivity). apply IH. intros c2 I. apply N. right. exact I.
  Qed.
  Lemma fold_one : forall cs h c, Forall (fun c => c_down c = false) cs -> 0 <= h <= 3 -> (forall c, In c cs -> 0 <= c_handler c <= 3 -> c_handler c = h) ->
    In c cs -> c_handler c = h -> fold_left (fun m c => sets_mode e (c_handler c) (c_down c) m) cs (2 ^ h) = 0.
  Proof.
    induction cs as [|c0 cs IH]; intros h c F R A I E; [contradiction|]. inversion F as [|? ? D F']; subst. cbn [fold_left]. rewrite Sm.
    destruct (modifier_bit_cases (c_handler c0)) as [[R0 _]|[R0 _]].
    - rewrite (A c0 (or_introl eq_refl) R0), D. unfold builtin_sets_mode, modifier_bit.
      replace ((0 <=? c_handler c) && (c_handler c <=? 3)) with true by (symmetry; apply andb_true_iff; rewrite !Z.leb_le; lia).
      rewrite Z.ldiff_diag. apply fold_zero, F'.
    - rewrite other_handler by exact R0. destruct I as [->|I]; [contradiction|]. apply (IH _ c); auto. intros c2 I2. apply A. right. exact I2.
  Qed.

  Lemma mode_cons : forall en l, mode_of (en :: l) = fold_left (fun m c => sets_mode e (c_handler c) (c_down c) m) (en_calls en) (mode_of l).
  Proof. intros en l. rewrite all_calls_cons. apply mode_after_app. Qed.

  (* nothing changes for modifiers *)
  Lemma mi_same : forall en l, mi l -> mode_of (en :: l) = mode_of l ->
    (forall k, mf k <> None -> has_binding (en :: l) k = has_binding l k /\ most (en :: l) k = most l k /\ (forall m n, bound (en :: l) k m n = bound l k m n) /\
       active (en :: l) k = active l k /\ pressed (en :: l) k = pressed l k /\ held (en :: l) k = held l k) ->
    (forall k m n h, mf k = None -> bound (en :: l) k m n = Some h -> ~ 0 <= h <= 3) ->
    (forall k h, mf k = None -> active (en :: l) k = Some h -> ~ 0 <= h <= 3) ->
    blurring (en :: l) = blurring l -> (blurring l = true -> forall k, pressed (en :: l) k = pressed l k) -> mi (en :: l).
  Proof.
    intros en l [M1 M2 M3 M4 M5 M6 M7 M8] Em Sa Ob Oa Bl Bp. constructor.
    - intros k h F. destruct (Sa k) as (E1 & E2 & E3 & _); [congruence|]. rewrite E1, E2. destruct (M1 k h F) as (X1 & X2 & X3). split; [exact X1|]. split; [exact X2|]. intros n. rewrite E3. apply X3.
    - exact Ob.
    - exact Oa.
    - intros k h x F A. destruct (Sa k) as (_ & _ & _ & E & _); [congruence|]. rewrite E in A. rewrite Em. eapply M4; eauto.
    - intros Z0. rewrite Em. apply M5. intros k N. destruct (Sa k N) as (_ & _ & _ & E & _). rewrite <- E. apply Z0, N.
    - intros k1 k2 N1 N2. destruct (Sa k1 N1) as (_ & _ & _ & E1 & _), (Sa k2 N2) as (_ & _ & _ & E2 & _). rewrite E1, E2. apply M6; assumption.
    - rewrite Bl. intros B k N. destruct (Sa k N) as (_ & _ & _ & E1 & E2 & E3). rewrite E1, E2, E3. apply M7; assumption.
    - rewrite Bl. intros B k. rewrite (Bp B). apply M8, B.
  Qed.

  Lemma mi_release : forall en l, mi l -> en_event en = Blur \/ (en_event en = Resume /\ blurring l = true) -> calls_released l (en_calls en) (en_ok en) -> mi (en :: l).
  Proof.
    intros en l [M1 M2 M3 M4 M5 M6 M7 M8] Ev R. destruct (released_keys l _ _ R) as (Nd & K1 & K2).
    assert (Fd : Forall (fun c => c_down c = false) (en_calls en)) by (destruct R as (? & _ & _ & R & _); exact R).
    assert (Fg : forall k, forgets en l k = en_ok en || existsb (fun c => same_key (c_key c) k) (en_calls en)).
    { intros k. unfold forgets. destruct Ev as [->| [-> ->]]; reflexivity. }
    assert (Ac : forall k, active (en :: l) k = if forgets en l k then None else active l k).
    { intros k. cbn [active]. destruct Ev as [->| [-> _]]; reflexivity. }
    assert (Hd : forall k, held (en :: l) k = if forgets en l k then false else held l k).
    { intros k. cbn [held]. destruct Ev as [->| [-> _]]; reflexivity. }
    assert (Bl : blurring (en :: l) = negb (en_ok en)) by (cbn [blurring]; destruct Ev as [->| [-> ->]]; reflexivity).
    assert (Pr : forall k, pressed (en :: l) k = false) by (intros k; cbn [pressed]; destruct Ev as [->| [-> B]]; auto).
    assert (Bo : forall k m n, bound (en :: l) k m n = bound l k m n) by (intros; cbn [bound]; destruct Ev as [->| [-> _]]; reflexivity).
    assert (Hc : forall c, In c (en_calls en) -> active l (c_key c) = Some (c_handler c)) by (intros c I; apply K1; apply in_map_iff; eauto).
    assert (Mo : forall c, In c (en_calls en) -> 0 <= c_handler c <= 3 -> mf (c_key c) = Some (c_handler c) /\ mode_of l = 2 ^ c_handler c).
    { intros c I Rg. pose proof (Hc c I) as A. destruct (mf (c_key c)) as [h|] eqn:F; [|exfalso; apply (M3 _ _ F A), Rg]. destruct (M4 _ _ _ F A) as [<- ?]. auto. }
    assert (Cases : (exists c, In c (en_calls en) /\ 0 <= c_handler c <= 3) \/ (forall c, In c (en_calls en) -> ~ 0 <= c_handler c <= 3)).
    { generalize (en_calls en). clear. induction l as [|c l [(c2 & I & R)|N]]; [right; contradiction|left; exists c2; split; [right; exact I|exact R]|].
      destruct (modifier_bit_cases (c_handler c)) as [[R _]|[R _]]; [left; exists c; split; [left; reflexivity|exact R]|]. right. intros c2 [<-|I]; [exact R|apply N, I]. }
    assert (Md : (exists c, In c (en_calls en) /\ mf (c_key c) <> None /\ mode_of (en :: l) = 0) \/ ((forall k, mf k <> None -> existsb (fun c => same_key (c_key c) k) (en_calls en) = false) /\ mode_of (en :: l) = mode_of l)).
    { destruct Cases as [(c & I & Rg)|N].
      - left. exists c. destruct (Mo c I Rg) as [F E]. split; [exact I|]. split; [congruence|]. rewrite mode_cons, E. apply (fold_one _ _ c); auto.
        intros c2 I2 R2. destruct (Mo c2 I2 R2) as [F2 E2]. rewrite E in E2. symmetry. apply Z.pow_inj_r in E2; lia.
      - right. split; [|rewrite mode_cons; apply fold_others, N]. intros k Nk. destruct (existsb _ _) eqn:X; [|reflexivity]. exfalso. apply existsb_exists in X.
        destruct X as (c & I & E). apply same_key_eq in E. subst k. destruct (mf (c_key c)) as [h|] eqn:F; [|congruence]. destruct (M4 _ _ _ F (Hc c I)) as [E _].
        apply (N c I). rewrite E. eapply mf_range; eauto. }
    assert (An : forall k, active (en :: l) k <> None -> forgets en l k = false /\ active (en :: l) k = active l k) by (intros k; rewrite Ac; destruct (forgets en l k); [congruence|auto]).
    constructor.
    - intros k h F. destruct (M1 k h F) as (X1 & X2 & X3). split; [cbn [has_binding]; rewrite X1, orb_true_r; reflexivity|].
      split; [cbn [most]; destruct Ev as [->| [-> _]]; exact X2|]. intros n. rewrite Bo. apply X3.
    - intros k m n h F. rewrite Bo. apply M2, F.
    - intros k h F A. rewrite Ac in A. destruct (forgets en l k); [discriminate|]. eapply M3; eauto.
    - intros k h x F A. destruct (An k) as [Fk Ek]; [congruence|]. rewrite Ek in A. destruct (M4 k h x F A) as [-> E]. split; [reflexivity|].
      destruct Md as [(c & I & Nc & _)|[_ ->]]; [|exact E]. exfalso. assert (k = c_key c) by (apply M6; try congruence; rewrite (Hc c I); discriminate). subst k.
      rewrite Fg in Fk. apply orb_false_iff in Fk. destruct Fk as [_ Fk]. assert (existsb (fun c0 => same_key (c_key c0) (c_key c)) (en_calls en) = true); [|congruence].
      apply existsb_exists. exists c. rewrite same_key_refl. auto.
    - intros Z0. destruct Md as [(_ & _ & _ & E)|[N E]]; [exact E|]. rewrite E. apply M5. intros k Nk. specialize (Z0 k Nk). rewrite Ac, Fg, (N k Nk), orb_false_r in Z0.
      destruct (en_ok en) eqn:Ok; [|exact Z0]. destruct (active l k) as [h|] eqn:A; [|reflexivity]. apply (K2 eq_refl) in A. assert (X : exists h, In (k, h) (map (fun c => (c_key c, c_handler c)) (en_calls en))) by eauto.
      apply called_in in X. rewrite (N k Nk) in X. discriminate.
    - intros k1 k2 N1 N2 A1 A2. destruct (An k1 A1) as [_ E1], (An k2 A2) as [_ E2]. apply M6; congruence.
    - rewrite Bl. intros B k N. rewrite Ac, Hd, Fg, Pr. destruct (en_ok en); [|discriminate]. cbn. split; [split; [congruence|discriminate]|reflexivity].
    - intros _ k. apply Pr.
  Qed.

  Lemma mi_step : forall en l, mi l -> fits e l en -> allowed l (en_event en) -> leaves_modifiers lk rk (en_event en) -> one_modifier lk rk (en :: l) -> mi (en :: l).
  Proof.
    intros en l M [Em Ft] A Lv [O _]. destruct (en_event en) as [|b|k t|k t| |] eqn:Ev; cbn [allowed] in A.
    - destruct Ft as [Ec _]. apply mi_same; auto.
      + rewrite mode_cons, Ec. reflexivity.
      + intros k N. cbn. unfold forgets. rewrite Ev. auto 7.
      + intros k m n h. cbn. rewrite Ev. apply (mi_other _ M).
      + intros k h. cbn. unfold forgets. rewrite Ev. apply (mi_active _ M).
      + cbn. rewrite Ev. reflexivity.
      + intros _ k. cbn. rewrite Ev. reflexivity.
    - destruct Ft as [Ec _], Lv as [Lk Lh].
      assert (Nk : forall k, mf k <> None -> en_ok en && same_key (b_key b) k = false).
      { intros k N. apply andb_false_iff. right. apply same_key_neq. intros <-. contradiction. }
      apply mi_same; auto.
      + rewrite mode_cons, Ec. reflexivity.
      + intros k N. cbn. unfold forgets. rewrite Ev, (Nk k N). repeat split; auto. intros m n. rewrite andb_assoc, (Nk k N). reflexivity.
      + intros k m n h F. cbn. rewrite Ev. destruct (_ && _); [intros X; injection X as <-; exact Lh|apply (mi_other _ M), F].
      + intros k h F. cbn. unfold forgets. rewrite Ev. destruct (_ && _); [discriminate|apply (mi_active _ M), F].
      + cbn. rewrite Ev. reflexivity.
      + intros _ k. cbn. rewrite Ev. reflexivity.
    - assert (Bl : blurring (en :: l) = blurring l) by (cbn; rewrite Ev; reflexivity). destruct A as [Bf _].
      assert (Bo : forall k m n, bound (en :: l) k m n = bound l k m n) by (intros; cbn; rewrite Ev; reflexivity).
      assert (Ac : forall k', active (en :: l) k' = if same_key k k' && negb (held l k') then selected l k' t (en_mode en) else active l k').
      { intros k'. cbn. unfold forgets. rewrite Ev. reflexivity. }
      assert (Hl : forall k', held (en :: l) k' = if same_key k k' then has_binding l k' else held l k') by (intros k'; cbn; unfold forgets; rewrite Ev; reflexivity).
      assert (Pr : forall k', pressed (en :: l) k' = same_key k k' || pressed l k') by (intros k'; cbn; rewrite Ev; reflexivity).
      assert (Se : forall h, mf k = None -> selected l k t (en_mode en) = Some h -> ~ 0 <= h <= 3).
      { intros h F. unfold selected. destruct (_ && _); [apply (mi_other _ M), F|discriminate]. }
      assert (Oth : forall k', mf k' <> None -> same_key k k' = false -> active (en :: l) k' = active l k' /\ pressed (en :: l) k' = pressed l k' /\ held (en :: l) k' = held l k').
      { intros k' _ E. rewrite Ac, Pr, Hl, E. auto. }
      assert (Cst : forall k', has_binding (en :: l) k' = has_binding l k' /\ most (en :: l) k' = most l k' /\ (forall m n, bound (en :: l) k' m n = bound l k' m n)).
      { intros k'. split; [cbn; rewrite Ev; reflexivity|]. split; [cbn; rewrite Ev; reflexivity|]. intros m n. apply Bo. }
      assert (Oa : forall k' h, mf k' = None -> active (en :: l) k' = Some h -> ~ 0 <= h <= 3).
      { intros k' h F. rewrite Ac. destruct (same_key k k') eqn:E; cbn [andb]; [|apply (mi_active _ M), F]. apply same_key_eq in E. subst k'.
        destruct (negb (held l k)); [apply Se, F|apply (mi_active _ M), F]. }
      destruct (mf k) as [h|] eqn:F.
      + assert (Nk : mf k <> None) by congruence. destruct (mi_pressed _ M Bf k Nk) as [Ap Hp]. destruct (held l k) eqn:Hd.
        * assert (Ec : en_calls en = []) by (unfold selected in Ft; rewrite Hd, andb_false_r in Ft; apply Ft). apply mi_same; auto.
          -- rewrite mode_cons, Ec. reflexivity.
          -- intros k' N. destruct (Cst k') as (C1 & C2 & C3). split; [exact C1|]. split; [exact C2|]. split; [exact C3|]. destruct (same_key k k') eqn:E; [|apply Oth; assumption].
             apply same_key_eq in E. subst k'. rewrite Ac, Pr, Hl, same_key_refl, Hd, <- Hp. cbn [andb negb orb]. destruct (mi_bound _ M k h F) as (-> & _). auto.
          -- intros k' m n h' F'. rewrite Bo. apply (mi_other _ M), F'.
          -- intros B. congruence.
        * assert (Z0 : forall k', mf k' <> None -> active l k' = None).
          { intros k' N'. destruct (active l k') eqn:A'; [|reflexivity]. assert (P' : pressed l k' = true) by (apply (mi_pressed _ M Bf k' N'); congruence).
            rewrite (O ltac:(discriminate) k' N' P') in P'. congruence. }
          assert (Se2 : selected l k t (en_mode en) = Some h).
          { destruct (mi_bound _ M k h F) as (B1 & B2 & B3). unfold selected. rewrite B1, Hd, B2, mult_one, Em, (mi_zero _ M Z0), B3. reflexivity. }
          rewrite Se2 in Ft. cbn [calls_one] in Ft. pose proof (mf_range k h F) as Rg.
          assert (Mo : mode_of (en :: l) = 2 ^ h).
          { rewrite mode_cons, Ft, (mi_zero _ M Z0). cbn [fold_left c_handler c_down]. rewrite Sm. unfold builtin_sets_mode, modifier_bit. rewrite Z.lor_0_l.
            replace ((0 <=? h) && (h <=? 3)) with true by (symmetry; apply andb_true_iff; rewrite !Z.leb_le; lia). reflexivity. }
          assert (Ak : active (en :: l) k = Some h) by (rewrite Ac, same_key_refl, Hd; exact Se2).
          assert (An : forall k', mf k' <> None -> active (en :: l) k' <> None -> k' = k).
          { intros k' N' A'. destruct (same_key k k') eqn:E; [apply same_key_eq in E; auto|]. destruct (Oth k' N' E) as [X _]. rewrite X, (Z0 k' N') in A'. contradiction. }
          constructor.
          -- intros k' h' F'. destruct (Cst k') as (-> & -> & C3). destruct (mi_bound _ M k' h' F') as (B1 & B2 & B3). split; [exact B1|]. split; [exact B2|]. intros n. rewrite C3. apply B3.
          -- intros k' m n h' F'. rewrite Bo. apply (mi_other _ M), F'.
          -- exact Oa.
          -- intros k' h' x F' A'. assert (k' = k) by (apply An; congruence). subst k'. rewrite F in F'. injection F' as <-. rewrite Ak in A'. injection A' as <-. auto.
          -- intros Z1. specialize (Z1 k Nk). congruence.
          -- intros k1 k2 N1 N2 A1 A2. rewrite (An k1 N1 A1), (An k2 N2 A2). reflexivity.
          -- intros _ k' N'. destruct (same_key k k') eqn:E.
             ++ apply same_key_eq in E. subst k'. rewrite Ak, Pr, Hl, same_key_refl. destruct (mi_bound _ M k h F) as (-> & _). split; [split; [reflexivity|discriminate]|reflexivity].
             ++ destruct (Oth k' N' E) as (-> & -> & ->). apply (mi_pressed _ M Bf k' N').
          -- rewrite Bl. congruence.
      + apply mi_same; auto.
        * rewrite mode_cons. unfold calls_one in Ft. destruct (selected l k t (en_mode en)) as [h|] eqn:Sel; [|destruct Ft as [-> _]; reflexivity].
          rewrite Ft. cbn [fold_left c_handler c_down]. rewrite Sm. apply other_handler, Se; auto.
        * intros k' N. destruct (Cst k') as (C1 & C2 & C3). split; [exact C1|]. split; [exact C2|]. split; [exact C3|]. apply Oth; [exact N|]. apply same_key_neq. intros <-. contradiction.
        * intros k' m n h' F'. rewrite Bo. apply (mi_other _ M), F'.
        * intros B. congruence.
    - assert (Bl : blurring (en :: l) = blurring l) by (cbn; rewrite Ev; reflexivity). destruct A as [Bf _].
      assert (Bo : forall k m n, bound (en :: l) k m n = bound l k m n) by (intros; cbn; rewrite Ev; reflexivity).
      assert (Ac : forall k', active (en :: l) k' = if same_key k k' then None else active l k') by (intros k'; cbn; unfold forgets; rewrite Ev; reflexivity).
      assert (Hl : forall k', held (en :: l) k' = if same_key k k' then false else held l k') by (intros k'; cbn; unfold forgets; rewrite Ev; reflexivity).
      assert (Pr : forall k', pressed (en :: l) k' = negb (same_key k k') && pressed l k') by (intros k'; cbn; rewrite Ev; reflexivity).
      assert (Cst : forall k', has_binding (en :: l) k' = has_binding l k' /\ most (en :: l) k' = most l k' /\ (forall m n, bound (en :: l) k' m n = bound l k' m n)).
      { intros k'. split; [cbn; rewrite Ev; reflexivity|]. split; [cbn; rewrite Ev; reflexivity|]. intros m n. apply Bo. }
      assert (Oa : forall k' h, mf k' = None -> active (en :: l) k' = Some h -> ~ 0 <= h <= 3).
      { intros k' h F'. rewrite Ac. destruct (same_key k k'); [discriminate|]. apply (mi_active _ M), F'. }
      assert (Ft2 : calls_one (en_calls en) (en_ok en) k (active l k) false).
      { destruct (active l k) as [h|] eqn:A; [rewrite (active_held l k h A Bf) in Ft; exact Ft|]. destruct (held l k); exact Ft. }
      assert (Mo : mode_of (en :: l) = match active l k with Some h => builtin_sets_mode h false (mode_of l) | None => mode_of l end).
      { rewrite mode_cons. unfold calls_one in Ft2. destruct (active l k) as [h|]; [rewrite Ft2; cbn [fold_left c_handler c_down]; apply Sm|destruct Ft2 as [-> _]; reflexivity]. }
      constructor.
      + intros k' h' F'. destruct (Cst k') as (-> & -> & C3). destruct (mi_bound _ M k' h' F') as (B1 & B2 & B3). split; [exact B1|]. split; [exact B2|]. intros n. rewrite C3. apply B3.
      + intros k' m n h' F'. rewrite Bo. apply (mi_other _ M), F'.
      + exact Oa.
      + intros k' h' x F'. rewrite Ac. destruct (same_key k k') eqn:E; [discriminate|]. intros A'. destruct (mi_mod _ M k' h' x F' A') as [-> X]. split; [reflexivity|].
        rewrite Mo, X. destruct (active l k) as [h|] eqn:Ak; [|reflexivity]. apply other_handler. apply (mi_active _ M k); [|exact Ak].
        destruct (mf k) eqn:F; [|reflexivity]. exfalso. apply same_key_neq in E. apply E. apply (mi_one _ M); congruence.
      + intros Z0. rewrite Mo. destruct (mf k) as [h|] eqn:F.
        * destruct (active l k) as [x|] eqn:Ak.
          -- destruct (mi_mod _ M k h x F Ak) as [-> ->]. pose proof (mf_range k h F) as Rg. unfold builtin_sets_mode, modifier_bit.
             replace ((0 <=? h) && (h <=? 3)) with true by (symmetry; apply andb_true_iff; rewrite !Z.leb_le; lia). apply Z.ldiff_diag.
          -- apply (mi_zero _ M). intros k' N'. specialize (Z0 k' N'). rewrite Ac in Z0. destruct (same_key k k') eqn:E; [|exact Z0]. apply same_key_eq in E. subst k'. exact Ak.
        * assert (X : mode_of l = 0).
          { apply (mi_zero _ M). intros k' N'. specialize (Z0 k' N'). rewrite Ac in Z0. destruct (same_key k k') eqn:E; [|exact Z0]. apply same_key_eq in E. subst k'. contradiction. }
          rewrite X. destruct (active l k); [|reflexivity]. unfold builtin_sets_mode. apply Z.ldiff_0_l.
      + intros k1 k2 N1 N2. rewrite !Ac. destruct (same_key k k1), (same_key k k2); try contradiction. apply (mi_one _ M); assumption.
      + intros _ k' N'. rewrite Ac, Pr, Hl. destruct (same_key k k'); cbn [negb andb].
        * split; [split; [congruence|discriminate]|reflexivity].
        * apply (mi_pressed _ M Bf k' N').
      + rewrite Bl. congruence.
    - apply mi_release; auto.
    - destruct (blurring l) eqn:B.
      + apply mi_release; auto.
      + destruct Ft as [Ec _]. apply mi_same; auto.
        * rewrite mode_cons, Ec. reflexivity.
        * intros k N. cbn. unfold forgets. rewrite Ev, B. auto 7.
        * intros k m n h. cbn. rewrite Ev. apply (mi_other _ M).
        * intros k h. cbn. unfold forgets. rewrite Ev, B. apply (mi_active _ M).
        * cbn. rewrite Ev, B. reflexivity.
        * intros _ k. cbn. rewrite Ev. reflexivity.
  Qed.

  Lemma mi_log : forall l2, fitting e (l2 ++ base) -> lawful (l2 ++ base) -> Forall (fun en => leaves_modifiers lk rk (en_event en)) l2 ->
    one_modifier lk rk (l2 ++ base) -> mi (l2 ++ base).
  Proof.
    induction l2 as [|en l2 IH]; intros F L Lv O; [exact base_mi|]. inversion Lv; subst. cbn [app] in *. apply mi_step; auto.
    - apply IH; [apply F|apply L|assumption|apply O].
    - apply F.
    - apply L.
  Qed.

  Lemma mi_right : forall l, mi l -> blurring l = false -> right_mode lk rk l (mode_of l).
  Proof.
    intros l M B h Hh. split.
    - intros T. assert (D : (exists k, mf k <> None /\ active l k <> None) \/ (forall k, mf k <> None -> active l k = None)).
      { assert (G : forall hs, (exists h k, In h hs /\ (k = rk h \/ k = lk h) /\ active l k <> None) \/ (forall h k, In h hs -> k = rk h \/ k = lk h -> active l k = None)).
        { induction hs as [|x hs [(h' & k & I & E & A)|N]]; [right; contradiction|left; exists h', k; split; [right; exact I|auto]|].
          destruct (active l (rk x)) eqn:A1; [left; exists x, (rk x); split; [left; reflexivity|]; split; [auto|congruence]|].
          destruct (active l (lk x)) eqn:A2; [left; exists x, (lk x); split; [left; reflexivity|]; split; [auto|congruence]|].
          right. intros h' k [<-|I] E; [destruct E as [->| ->]; assumption|eapply N; eauto]. }
        assert (Mk : forall h' k, In h' [3; 2; 1; 0] -> k = rk h' \/ k = lk h' -> mf k <> None).
        { intros h' k I E C. apply (find_none _ _ C) in I. cbn in I. apply orb_false_iff in I. destruct I as [I1 I2]. destruct E as [->| ->]; rewrite same_key_refl in *; discriminate. }
        destruct (G [3; 2; 1; 0]) as [(h' & k & I & E & A)|N].
        - left. exists k. split; [eapply Mk; eauto|exact A].
        - right. intros k Nk. destruct (mf k) as [h'|] eqn:F; [|congruence]. apply find_some in F. destruct F as [I F]. apply (N h' k I). apply orb_true_iff in F.
          destruct F as [F|F]; apply same_key_eq in F; auto. }
      destruct D as [(k & N & A)|Z0]; [|rewrite (mi_zero _ M Z0), Z.bits_0 in T; discriminate].
      destruct (mf k) as [h'|] eqn:F; [|congruence]. destruct (active l k) as [x|] eqn:Ak; [|congruence]. destruct (mi_mod _ M k h' x F Ak) as [-> E]. rewrite E in T.
      pose proof (mf_range k h' F). exists k. rewrite Z.pow2_bits_eqb in T by lia. apply Z.eqb_eq in T. subst h'. split; [exact F|]. apply (mi_pressed _ M B k); congruence.
    - intros (k & F & P). destruct (active l k) as [x|] eqn:Ak.
      + destruct (mi_mod _ M k h x F Ak) as [_ ->]. apply Z.pow2_bits_true. exact Hh.
      + exfalso. apply (mi_pressed _ M B k) in P; congruence.
  Qed.
End One.
