(* Key bindings do what they must do *)
From Coq Require Import List ZArith Bool Sorted Lia.
From Verif Require Import KeyBindModel KeyBindSpec KeyBindProofs ArrLib.
Import ListNotations.
Open Scope Z_scope.

Record known (l : log) (k : key) (sl : slot) : Prop := {
  kn_pressed : is_pressed sl = held l k;
  kn_mult : multiplicity sl = multiplicity_of (most l k) (presses l k);
  kn_last : forall t m ps, presses l k = (t, m) :: ps -> timestamp sl = t /\ modifier_mode sl = m /\ 0 <= t <= time_max;
  kn_index : held l k = true -> handler_index sl = match active l k with Some h => h | None => -1 end;
  kn_inactive : held l k = false -> active l k = None
}.
Definition forgotten (l : log) (k : key) (sl : slot) : Prop := blurring l = true /\ is_pressed sl = false /\ multiplicity sl = 0 /\ active l k = None.

Record slot_ok (l : log) (k : key) (sl : slot) : Prop := {
  sk_has : has_binding l k = true;
  sk_bound : forall m n, find_handler (handlers sl) m n = bound l k m n;
  sk_most : max_multiplicity sl = most l k;
  sk_top : top (handlers sl) 0 = most l k;
  sk_int : most l k <= int_max;
  sk_range : forall m n h, bound l k m n = Some h -> 0 <= h < registered l;
  sk_active : forall h, active l k = Some h -> 0 <= h < registered l;
  sk_state : known l k sl \/ forgotten l k sl
}.

Record kbrel (e : henv) (s : kb) (l : log) : Prop := {
  kr_num : num_handlers s = registered l;
  kr_blur : on_blur_in_progress s = blurring l;
  kr_calls : calls s = all_calls l;
  kr_mode : mode s = mode_after e (all_calls l);
  kr_order : ordered (key_slots s);
  kr_slot : forall k, match find_slot (key_slots s) k with Some sl => slot_ok l k sl | None => has_binding l k = false end
}.

Lemma kbrel_init : forall e, kbrel e kb_init [].
Proof. intros e. constructor; try reflexivity. constructor. Qed.

(* the active handler of a key whose slot there is *)
Lemma pending : forall l k sl h, slot_ok l k sl -> (active l k = Some h <-> is_pressed sl = true /\ handler_index sl = h /\ 0 <= h).
Proof.
  intros l k sl h H. destruct (sk_state _ _ _ H) as [K|(B & P & M & A)].
  - rewrite (kn_pressed _ _ _ K). destruct (held l k) eqn:Hd.
    + rewrite (kn_index _ _ _ K Hd). destruct (active l k) as [h0|] eqn:A.
      * pose proof (sk_active _ _ _ H _ A). split; [intros E; injection E as ->; repeat split; lia|intros (_ & -> & _); reflexivity].
      * split; [discriminate|]. intros (_ & <- & C). lia.
    + rewrite (kn_inactive _ _ _ K Hd). split; [discriminate|]. intros (C & _). discriminate.
  - rewrite P, A. split; [discriminate|]. intros (C & _). discriminate.
Qed.

Lemma kb_slot_none : forall e s l k, kbrel e s l -> find_slot (key_slots s) k = None -> has_binding l k = false.
Proof. intros e s l k H F. pose proof (kr_slot _ _ _ H k) as X. rewrite F in X. exact X. Qed.
Lemma kb_slot : forall e s l k sl, kbrel e s l -> find_slot (key_slots s) k = Some sl -> slot_ok l k sl.
Proof. intros e s l k sl H F. pose proof (kr_slot _ _ _ H k) as X. rewrite F in X. exact X. Qed.

(* what does not change for a key when an event does not concern it *)
Lemma unconcerned : forall en l k, forgets en l k = false ->
  match en_event en with Bind b => en_ok en && same_key (b_key b) k = false | Down k2 _ | Up k2 _ => k2 <> k | _ => True end ->
  has_binding (en :: l) k = has_binding l k /\ (forall m n, bound (en :: l) k m n = bound l k m n) /\ most (en :: l) k = most l k /\
  held (en :: l) k = held l k /\ presses (en :: l) k = presses l k /\ active (en :: l) k = active l k.
Proof.
  intros en l k F N. cbn [has_binding bound most held presses active]. rewrite F. destruct (en_event en) as [|b|k2 t|k2 t| |]; cbn [orb]; repeat split; auto.
  - rewrite N. reflexivity.
  - intros m n. rewrite andb_assoc, N. reflexivity.
  - rewrite N. reflexivity.
  - apply same_key_neq in N. rewrite N. reflexivity.
  - apply same_key_neq in N. rewrite N. reflexivity.
  - apply same_key_neq in N. rewrite N. reflexivity.
  - apply same_key_neq in N. rewrite N. reflexivity.
  - apply same_key_neq in N. rewrite N. reflexivity.
Qed.

Lemma slot_ok_unconcerned : forall en l k sl, forgets en l k = false ->
  match en_event en with Bind b => en_ok en && same_key (b_key b) k = false | Down k2 _ | Up k2 _ => k2 <> k | _ => True end ->
  registered l <= registered (en :: l) -> (blurring l = true -> blurring (en :: l) = true \/ known l k sl) -> slot_ok l k sl -> slot_ok (en :: l) k sl.
Proof.
  intros en l k sl F N Rg Bl [H1 H2 H3 H4 H5 H6 H7 H8]. destruct (unconcerned en l k F N) as (U1 & U2 & U3 & U4 & U5 & U6).
  constructor; rewrite ?U1, ?U3; auto.
  - intros m n. rewrite U2. apply H2.
  - intros m n h E. rewrite U2 in E. apply H6 in E. lia.
  - intros h E. rewrite U6 in E. apply H7 in E. lia.
  - assert (K : known l k sl -> known (en :: l) k sl) by (intros [K1 K2 K3 K4 K5]; constructor; rewrite ?U3, ?U4, ?U5, ?U6; assumption).
    destruct H8 as [X|(B & P & M & A)]; [left; auto|]. destruct (Bl B) as [X|X]; [|left; auto]. right. unfold forgotten. rewrite U6. auto.
Qed.

Lemma has_unconcerned : forall en l k, match en_event en with Bind b => en_ok en && same_key (b_key b) k = false | _ => True end ->
  has_binding (en :: l) k = has_binding l k.
Proof. intros en l k N. cbn [has_binding]. destruct (en_event en); auto. rewrite N. reflexivity. Qed.

Section Step.
  Variable e : henv.
  Hypothesis Qu : quiet e.

  Definition goes_on (s : kb) (l : log) (ev : event) (o : option (bool * kb)) : Prop :=
    exists ok s2 cs, o = Some (ok, s2) /\ calls s2 = calls s ++ cs /\ fits e l (Entry ev (mode s) cs ok) /\ kbrel e s2 (Entry ev (mode s) cs ok :: l).

  Lemma register_ok : forall s l, kbrel e s l -> goes_on s l Register (step e s Register).
  Proof.
    intros s l H. cbn [step]. unfold register_handler. destruct (num_handlers s <=? int_max) eqn:E.
    - apply Z.leb_le in E. do 3 eexists. split; [reflexivity|]. cbn [calls]. split; [symmetry; apply app_nil_r|]. split.
      + split; [exact (kr_mode _ _ _ H)|]. split; [reflexivity|]. rewrite <- (kr_num _ _ _ H). tauto.
      + constructor; cbn [num_handlers key_slots mode on_blur_in_progress calls].
        * cbn. rewrite (kr_num _ _ _ H). reflexivity.
        * apply (kr_blur _ _ _ H).
        * rewrite all_calls_cons. cbn. rewrite app_nil_r. apply (kr_calls _ _ _ H).
        * rewrite all_calls_cons. cbn. rewrite app_nil_r. apply (kr_mode _ _ _ H).
        * apply (kr_order _ _ _ H).
        * intros k. pose proof (kr_slot _ _ _ H k) as X. destruct (find_slot (key_slots s) k) as [sl|].
          -- apply slot_ok_unconcerned; [first [exact K|reflexivity]|first [exact I|exact K|reflexivity]|cbn; lia|intros Bx; left; exact Bx|exact X].
          -- rewrite has_unconcerned; [exact X|exact I].
    - apply Z.leb_gt in E. do 3 eexists. split; [reflexivity|]. split; [symmetry; apply app_nil_r|]. split.
      + split; [exact (kr_mode _ _ _ H)|]. split; [reflexivity|]. rewrite <- (kr_num _ _ _ H). split; [discriminate|]. intros C. exfalso. lia.
      + constructor.
        * cbn. rewrite (kr_num _ _ _ H). reflexivity.
        * apply (kr_blur _ _ _ H).
        * rewrite all_calls_cons. cbn. rewrite app_nil_r. apply (kr_calls _ _ _ H).
        * rewrite all_calls_cons. cbn. rewrite app_nil_r. apply (kr_mode _ _ _ H).
        * apply (kr_order _ _ _ H).
        * intros k. pose proof (kr_slot _ _ _ H k) as X. destruct (find_slot (key_slots s) k) as [sl|].
          -- apply slot_ok_unconcerned; [first [exact K|reflexivity]|first [exact I|exact K|reflexivity]|cbn; lia|intros Bx; left; exact Bx|exact X].
          -- rewrite has_unconcerned; [exact X|exact I].
  Qed.

  Lemma bind_ok : forall s l b, kbrel e s l -> b_mult b <= int_max -> goes_on s l (Bind b) (step e s (Bind b)).
  Proof.
    intros s l b H Int. cbn [step]. unfold bind_key. rewrite (kr_num _ _ _ H). destruct ((b_handler b <? 0) || (registered l <=? b_handler b)) eqn:E.
    - do 3 eexists. split; [reflexivity|]. split; [symmetry; apply app_nil_r|]. split.
      + split; [exact (kr_mode _ _ _ H)|]. split; [reflexivity|]. split; [discriminate|]. intros R. exfalso.
        apply orb_true_iff in E. rewrite Z.ltb_lt, Z.leb_le in E. lia.
      + constructor.
        * cbn. apply (kr_num _ _ _ H).
        * apply (kr_blur _ _ _ H).
        * rewrite all_calls_cons. cbn. rewrite app_nil_r. apply (kr_calls _ _ _ H).
        * rewrite all_calls_cons. cbn. rewrite app_nil_r. apply (kr_mode _ _ _ H).
        * apply (kr_order _ _ _ H).
        * intros k. pose proof (kr_slot _ _ _ H k) as X. destruct (find_slot (key_slots s) k) as [sl|].
          -- apply slot_ok_unconcerned; [first [exact K|reflexivity]|first [exact I|exact K|reflexivity]|cbn; lia|intros Bx; left; exact Bx|exact X].
          -- rewrite has_unconcerned; [exact X|reflexivity].
    - apply orb_false_iff in E. rewrite Z.ltb_ge, Z.leb_gt in E. do 3 eexists. split; [reflexivity|]. cbn [calls]. split; [symmetry; apply app_nil_r|]. split.
      + split; [exact (kr_mode _ _ _ H)|]. split; [reflexivity|]. tauto.
      + constructor; cbn [num_handlers key_slots mode on_blur_in_progress calls].
        * reflexivity.
        * apply (kr_blur _ _ _ H).
        * rewrite all_calls_cons. cbn. rewrite app_nil_r. apply (kr_calls _ _ _ H).
        * rewrite all_calls_cons. cbn. rewrite app_nil_r. apply (kr_mode _ _ _ H).
        * apply put_ordered, (kr_order _ _ _ H).
        * intros k. rewrite find_put. destruct (same_key (b_key b) k) eqn:K.
          -- pose proof (kr_slot _ _ _ H k) as X. apply same_key_eq in K. subst k.
             set (sl := match find_slot (key_slots s) (b_key b) with Some sl => sl | None => new_slot end).
             assert (B : (forall m n, find_handler (handlers sl) m n = bound l (b_key b) m n) /\ top (handlers sl) 0 = most l (b_key b) /\ most l (b_key b) <= int_max /\
               (forall m n h, bound l (b_key b) m n = Some h -> 0 <= h < registered l)).
             { unfold sl. destruct (find_slot (key_slots s) (b_key b)) as [sl0|]; [destruct X; auto|].
               destruct (unbound_quiet l (b_key b) X) as (_ & _ & _ & Bn). cbn [new_slot handlers find_handler top fold_left].
               assert (M : most l (b_key b) = 0).
               { clear - X. induction l as [|en l IH]; [reflexivity|]. cbn [has_binding most] in *. apply orb_false_iff in X. destruct X as [X1 X2].
                 destruct (en_event en); auto. rewrite X1. auto. }
               rewrite M. split; [intros m n; symmetry; apply Bn|]. split; [reflexivity|]. split; [unfold int_max; lia|]. intros m n h C. rewrite Bn in C. discriminate. }
             destruct B as (B1 & B2 & B3 & B4).
             constructor; cbn [has_binding bound most active held presses forgets en_event en_ok on_reconfigured reset_key_state handlers max_multiplicity];
               rewrite ?same_key_refl; cbn [andb orb].
             ++ reflexivity.
             ++ intros m n. rewrite find_set_handler, B1. reflexivity.
             ++ change (top (set_handler (handlers sl) (b_mode b) (b_mult b) (b_handler b)) 0 = Z.max (b_mult b) (most l (b_key b))). rewrite top_set, B2. reflexivity.
             ++ rewrite top_set, B2. reflexivity.
             ++ lia.
             ++ cbn [registered en_event]. intros m n h E2. destruct (_ && _); [injection E2 as <-; lia|eauto].
             ++ discriminate.
             ++ left. constructor; cbn [forgets held presses active en_event en_ok most]; rewrite ?same_key_refl; cbn; congruence.
          -- pose proof (kr_slot _ _ _ H k) as X. destruct (find_slot (key_slots s) k) as [sl|].
             ++ apply slot_ok_unconcerned; [first [exact K|reflexivity]|first [exact I|exact K|reflexivity]|cbn; lia|intros Bx; left; exact Bx|exact X].
             ++ rewrite has_unconcerned; [exact X|exact K].
  Qed.

  Lemma call_ok : forall s k h down, 0 <= h < num_handlers s -> exists r,
    call_handler e s k h down = Some (r, KB (num_handlers s) (key_slots s) (sets_mode e h down (mode s)) (on_blur_in_progress s) (calls s ++ [Call k h down r])).
  Proof.
    intros s k h down Rg. unfold call_handler. replace ((0 <=? h) && (h <? num_handlers s)) with true by (symmetry; apply andb_true_iff; rewrite Z.leb_le, Z.ltb_lt; lia).
    rewrite Qu. cbn [fold_left]. eexists. reflexivity.
  Qed.
  Lemma mode_one : forall cs k h d r, mode_after e (cs ++ [Call k h d r]) = sets_mode e h d (mode_after e cs).
  Proof. intros cs k h d r. rewrite mode_after_app. reflexivity. Qed.

  Lemma nothing_done : forall s l ev, kbrel e s l -> fits e l (Entry ev (mode s) [] true) -> (match ev with Down _ _ | Up _ _ | Resume => True | _ => False end) ->
    (match ev with Resume => blurring l = false | _ => True end) ->
    (forall k, held (Entry ev (mode s) [] true :: l) k = held l k /\ presses (Entry ev (mode s) [] true :: l) k = presses l k /\ active (Entry ev (mode s) [] true :: l) k = active l k) ->
    goes_on s l ev (Some (true, s)).
  Proof.
    intros s l ev H Ft K Bl0 U. do 3 eexists. split; [reflexivity|]. split; [symmetry; apply app_nil_r|]. split; [exact Ft|].
    set (en := Entry ev (mode s) [] true). assert (Bl : blurring (en :: l) = blurring l) by (destruct ev; cbn in *; try tauto; rewrite Bl0; reflexivity).
    assert (Rg : registered (en :: l) = registered l) by (destruct ev; cbn in *; tauto). constructor.
    - rewrite Rg. apply (kr_num _ _ _ H).
    - rewrite Bl. apply (kr_blur _ _ _ H).
    - rewrite all_calls_cons. cbn. rewrite app_nil_r. apply (kr_calls _ _ _ H).
    - rewrite all_calls_cons. cbn. rewrite app_nil_r. apply (kr_mode _ _ _ H).
    - apply (kr_order _ _ _ H).
    - intros k. destruct (U k) as (U1 & U2 & U3). fold en in U1, U2, U3. pose proof (kr_slot _ _ _ H k) as X.
      assert (Hb : has_binding (en :: l) k = has_binding l k) by (apply has_unconcerned; destruct ev; cbn in *; tauto).
      assert (Ms : most (en :: l) k = most l k) by (destruct ev; cbn in *; tauto).
      assert (Bd : forall m n, bound (en :: l) k m n = bound l k m n) by (intros m n; destruct ev; cbn in *; tauto).
      destruct (find_slot (key_slots s) k) as [sl|]; [|rewrite Hb; exact X]. destruct X as [X1 X2 X3 X4 X5 X6 X7 X8].
      constructor; rewrite ?Hb, ?Ms, ?Rg; auto.
      + intros m n. rewrite Bd. apply X2.
      + intros m n h E. rewrite Bd in E. eauto.
      + intros h E. rewrite U3 in E. auto.
      + destruct X8 as [[K1 K2 K3 K4 K5]|(A1 & A2 & A3 & A4)]; [left; constructor; rewrite ?Ms, ?U1, ?U2, ?U3; assumption|right; unfold forgotten; rewrite Bl, U3; auto].
  Qed.

  Lemma key_slot_ok : forall s l k sl ev cs, (exists t, ev = Down k t) \/ (exists t, ev = Up k t) -> slot_ok l k sl ->
    forall sl2, handlers sl2 = handlers sl -> max_multiplicity sl2 = max_multiplicity sl ->
    forall ok, (forall h, active (Entry ev (mode s) cs ok :: l) k = Some h -> 0 <= h < registered l) -> known (Entry ev (mode s) cs ok :: l) k sl2 ->
    slot_ok (Entry ev (mode s) cs ok :: l) k sl2.
  Proof.
    intros s l k sl ev cs Ev [X1 X2 X3 X4 X5 X6 X7 X8] sl2 E1 E2 ok Ac Kn. constructor; rewrite ?E1, ?E2.
    - destruct Ev as [[t ->]|[t ->]]; exact X1.
    - intros m n. rewrite X2. destruct Ev as [[t ->]|[t ->]]; reflexivity.
    - destruct Ev as [[t ->]|[t ->]]; exact X3.
    - destruct Ev as [[t ->]|[t ->]]; exact X4.
    - destruct Ev as [[t ->]|[t ->]]; exact X5.
    - intros m n h E. destruct Ev as [[t ->]|[t ->]]; eapply X6; exact E.
    - intros h E. destruct Ev as [[t ->]|[t ->]]; apply Ac; exact E.
    - left. exact Kn.
  Qed.

  (* after a key was pressed or released, and a handler was called or not *)
  Lemma key_rel : forall s l k ev sl sl2 h d ok (c : bool), kbrel e s l -> blurring l = false -> (exists t, ev = Down k t) \/ (exists t, ev = Up k t) ->
    find_slot (key_slots s) k = Some sl -> handlers sl2 = handlers sl -> max_multiplicity sl2 = max_multiplicity sl ->
    let cs := if c then [Call k h d ok] else [] in
    (forall h, active (Entry ev (mode s) cs ok :: l) k = Some h -> 0 <= h < registered l) -> known (Entry ev (mode s) cs ok :: l) k sl2 ->
    kbrel e (KB (num_handlers s) (put_slot (key_slots s) k sl2) (if c then sets_mode e h d (mode s) else mode s) (on_blur_in_progress s) (calls s ++ cs))
      (Entry ev (mode s) cs ok :: l).
  Proof.
    intros s l k ev sl sl2 h d ok c H Bl Ev F E1 E2 cs Ac Kn. constructor; cbn [num_handlers key_slots mode on_blur_in_progress calls].
    - rewrite (kr_num _ _ _ H). destruct Ev as [[t ->]|[t ->]]; reflexivity.
    - rewrite (kr_blur _ _ _ H). destruct Ev as [[t ->]|[t ->]]; reflexivity.
    - rewrite all_calls_cons, (kr_calls _ _ _ H). reflexivity.
    - rewrite all_calls_cons. cbn [en_calls]. unfold cs. destruct c; [rewrite mode_one|rewrite app_nil_r]; rewrite (kr_mode _ _ _ H); reflexivity.
    - apply put_ordered, (kr_order _ _ _ H).
    - intros k'. rewrite find_put. destruct (same_key k k') eqn:K.
      + apply same_key_eq in K. subst k'. eapply key_slot_ok; eauto. eapply kb_slot; eauto.
      + pose proof (kr_slot _ _ _ H k') as X. apply same_key_neq in K. destruct (find_slot (key_slots s) k') as [sl'|].
        * apply slot_ok_unconcerned; auto.
          -- destruct Ev as [[t ->]|[t ->]]; reflexivity.
          -- destruct Ev as [[t ->]|[t ->]]; exact K.
          -- destruct Ev as [[t ->]|[t ->]]; cbn; lia.
          -- intros C. congruence.
        * rewrite has_unconcerned; [exact X|]. destruct Ev as [[t ->]|[t ->]]; exact I.
  Qed.

  Lemma known_of : forall s l k sl, kbrel e s l -> blurring l = false -> find_slot (key_slots s) k = Some sl -> known l k sl.
  Proof. intros s l k sl H Bl F. destruct (sk_state _ _ _ (kb_slot _ _ _ _ _ H F)) as [K|(C & _)]; [exact K|congruence]. Qed.

  Lemma down_ok : forall s l k t, kbrel e s l -> blurring l = false -> 0 <= t <= time_max -> goes_on s l (Down k t) (step e s (Down k t)).
  Proof.
    intros s l k t H Bl Tm. cbn [step]. unfold on_keydown. destruct (find_slot (key_slots s) k) as [sl|] eqn:F.
    2: { pose proof (kb_slot_none _ _ _ _ H F) as X. destruct (unbound_quiet l k X) as (U1 & U2 & U3 & _). apply nothing_done; auto.
      - split; [exact (kr_mode _ _ _ H)|]. cbn. unfold selected. rewrite X. cbn. auto.
      - intros k'. cbn [held presses active forgets en_event]. destruct (same_key k k') eqn:K; [|auto]. apply same_key_eq in K. subst k'.
        unfold selected. rewrite X, U1, U2, U3. cbn. auto. }
    pose proof (kb_slot _ _ _ _ _ H F) as X. pose proof (known_of _ _ _ _ H Bl F) as Kn. pose proof (sk_has _ _ _ X) as Hb.
    destruct (is_pressed sl) eqn:P.
    { rewrite (kn_pressed _ _ _ Kn) in P. apply nothing_done; auto.
      - split; [exact (kr_mode _ _ _ H)|]. cbn. unfold selected. rewrite Hb, P. cbn. auto.
      - intros k'. cbn [held presses active forgets en_event]. destruct (same_key k k') eqn:K; [|auto]. apply same_key_eq in K. subst k'.
        rewrite Hb, P. cbn. auto. }
    rewrite (kn_pressed _ _ _ Kn) in P.
    set (ps := presses l k). set (mult := multiplicity_of (most l k) ((t, mode s) :: ps)).
    assert (C : exists c, connected s sl t = Some c /\ mult = (if c then multiplicity sl else 0) + 1).
    { unfold connected. rewrite (kn_mult _ _ _ Kn). fold ps. destruct ps as [|[t2 m2] ps'] eqn:Ps.
      - cbn [multiplicity_of Z.ltb Z.compare andb]. exists false. split; reflexivity.
      - destruct (kn_last _ _ _ Kn t2 m2 ps' Ps) as (T1 & T2 & T3). rewrite T1, T2.
        pose proof (mult_pos (most l k) ((t2, m2) :: ps') ltac:(discriminate)) as Mp.
        replace (0 <? multiplicity_of (most l k) ((t2, m2) :: ps')) with true by (symmetry; apply Z.ltb_lt; lia). cbn [andb].
        unfold mult. cbn [multiplicity_of]. fold (multiplicity_of (most l k) ((t2, m2) :: ps')). destruct (mode s =? m2) eqn:Em.
        + replace ((- time_max - 1 <=? t - t2) && (t - t2 <=? time_max)) with true by (symmetry; apply andb_true_iff; rewrite !Z.leb_le; lia).
          eexists. split; [reflexivity|]. rewrite (sk_most _ _ _ X). cbn [andb]. destruct (_ && _); reflexivity.
        + exists false. split; reflexivity. }
    destruct C as (c & -> & Mu). cbn [obind]. rewrite <- Mu.
    assert (Ml : mult <= int_max).
    { pose proof (mult_le (most l k) ((t, mode s) :: ps)). fold mult in H0. pose proof (sk_int _ _ _ X). unfold int_max in *. lia. }
    replace (negb (mult <=? int_max)) with false by (symmetry; apply negb_false_iff, Z.leb_le; exact Ml).
    rewrite (sk_bound _ _ _ X).
    assert (Se : selected l k t (mode s) = bound l k (mode s) mult) by (unfold selected; rewrite Hb, P; reflexivity).
    assert (Kn2 : forall cs ok hi, hi = match selected l k t (mode s) with Some h => h | None => -1 end ->
      known (Entry (Down k t) (mode s) cs ok :: l) k (Slot true mult t (mode s) (handlers sl) (max_multiplicity sl) hi)).
    { intros cs ok hi E. constructor; cbn [held presses active forgets en_event en_mode most is_pressed multiplicity timestamp modifier_mode handler_index];
        rewrite ?same_key_refl, ?Hb, ?P; cbn [andb negb].
      - reflexivity.
      - reflexivity.
      - intros t0 m0 ps0 E0. injection E0 as <- <- _. auto.
      - intros _. exact E.
      - discriminate. }
    assert (Ac : forall cs ok h, active (Entry (Down k t) (mode s) cs ok :: l) k = Some h -> 0 <= h < registered l).
    { intros cs ok h E. cbn [active forgets en_event en_mode] in E. rewrite same_key_refl, P in E. cbn [andb negb] in E. rewrite Se in E. eapply (sk_range _ _ _ X); eauto. }
    destruct (bound l k (mode s) mult) as [h|] eqn:B.
    - unfold with_slot. pose proof (sk_range _ _ _ X _ _ _ B) as Rg. rewrite <- (kr_num _ _ _ H) in Rg.
      match goal with |- goes_on _ _ _ (call_handler _ ?s1 _ _ _) => destruct (call_ok s1 k h true Rg) as (r & ->) end.
      cbn [num_handlers key_slots mode on_blur_in_progress calls]. exists r. eexists. exists [Call k h true r]. split; [reflexivity|]. split; [reflexivity|]. split.
      + split; [exact (kr_mode _ _ _ H)|]. cbn [en_event en_calls en_ok en_mode]. rewrite Se. reflexivity.
      + apply (key_rel s l k (Down k t) sl _ h true r true H Bl); auto; [left; eauto|apply Ac|]. apply Kn2. rewrite Se. reflexivity.
    - exists true. eexists. exists []. split; [reflexivity|]. split; [symmetry; apply app_nil_r|]. split.
      + split; [exact (kr_mode _ _ _ H)|]. cbn [en_event en_calls en_ok en_mode]. rewrite Se. cbn. auto.
      + pose proof (key_rel s l k (Down k t) sl (Slot true mult t (mode s) (handlers sl) (max_multiplicity sl) (-1)) 0 true true false H Bl) as Z0.
        cbv iota zeta in Z0. rewrite app_nil_r in Z0. apply Z0; auto; [left; eauto|apply Ac|]. apply Kn2. rewrite Se. reflexivity.
  Qed.

  Lemma up_ok : forall s l k t, kbrel e s l -> blurring l = false -> goes_on s l (Up k t) (step e s (Up k t)).
  Proof.
    intros s l k t H Bl. cbn [step]. unfold on_keyup. destruct (find_slot (key_slots s) k) as [sl|] eqn:F.
    2: { pose proof (kb_slot_none _ _ _ _ H F) as X. destruct (unbound_quiet l k X) as (U1 & U2 & U3 & _). apply nothing_done; auto.
      - split; [exact (kr_mode _ _ _ H)|]. cbn. rewrite U2. cbn. auto.
      - intros k'. cbn [held presses active forgets en_event]. destruct (same_key k k') eqn:K; [|auto]. apply same_key_eq in K. subst k'.
        rewrite U1, U2, U3. auto. }
    pose proof (kb_slot _ _ _ _ _ H F) as X. pose proof (known_of _ _ _ _ H Bl F) as Kn. pose proof (sk_has _ _ _ X) as Hb.
    destruct (is_pressed sl) eqn:P; cbn [negb].
    2: { rewrite (kn_pressed _ _ _ Kn) in P. pose proof (kn_inactive _ _ _ Kn P) as A. apply nothing_done; auto.
      - split; [exact (kr_mode _ _ _ H)|]. cbn. rewrite P. cbn. auto.
      - intros k'. cbn [held presses active forgets en_event]. destruct (same_key k k') eqn:K; [|auto]. apply same_key_eq in K. subst k'.
        rewrite P, A. auto. }
    rewrite (kn_pressed _ _ _ Kn) in P. pose proof (kn_index _ _ _ Kn P) as Ix.
    assert (Kn2 : forall cs ok, known (Entry (Up k t) (mode s) cs ok :: l) k
      (Slot false (multiplicity sl) (timestamp sl) (modifier_mode sl) (handlers sl) (max_multiplicity sl) (handler_index sl))).
    { intros cs ok. constructor; cbn [held presses active forgets en_event en_mode most is_pressed multiplicity timestamp modifier_mode handler_index];
        rewrite ?same_key_refl; try congruence; try reflexivity; apply Kn. }
    assert (Ac : forall cs ok h, active (Entry (Up k t) (mode s) cs ok :: l) k = Some h -> 0 <= h < registered l).
    { intros cs ok h E. cbn [active forgets en_event en_mode] in E. rewrite same_key_refl in E. discriminate. }
    destruct (active l k) as [h|] eqn:A.
    - pose proof (sk_active _ _ _ X _ A) as Rg. rewrite Ix in *. replace (h <? 0) with false by (symmetry; apply Z.ltb_ge; lia). unfold with_slot.
      rewrite <- (kr_num _ _ _ H) in Rg. match goal with |- goes_on _ _ _ (call_handler _ ?s1 _ _ _) => destruct (call_ok s1 k h false Rg) as (r & ->) end.
      cbn [num_handlers key_slots mode on_blur_in_progress calls]. exists r. eexists. exists [Call k h false r]. split; [reflexivity|]. split; [reflexivity|]. split.
      + split; [exact (kr_mode _ _ _ H)|]. cbn [en_event en_calls en_ok en_mode]. rewrite P, A. reflexivity.
      + apply (key_rel s l k (Up k t) sl _ h false r true H Bl); auto; try (right; eauto; fail); try apply Ac; apply Kn2.
    - rewrite Ix in *. cbn [Z.ltb Z.compare]. exists true. eexists. exists []. split; [reflexivity|]. split; [symmetry; apply app_nil_r|]. split.
      + split; [exact (kr_mode _ _ _ H)|]. cbn [en_event en_calls en_ok en_mode]. rewrite P, A. cbn. auto.
      + pose proof (key_rel s l k (Up k t) sl (Slot false (multiplicity sl) (timestamp sl) (modifier_mode sl) (handlers sl) (max_multiplicity sl) (-1)) 0 true true false H Bl) as Z0.
        cbv iota zeta in Z0. rewrite app_nil_r in Z0. apply Z0; auto; try (right; eauto; fail); try apply Ac; apply Kn2.
  Qed.

  Definition pending_in (m : list (key * slot)) (k : key) : list (key * Z) :=
    match find_slot m k with
    | Some sl => if negb (is_pressed sl) || (handler_index sl <? 0) then [] else [(k, handler_index sl)]
    | None => []
    end.
  Definition pairs (cs : list call) : list (key * Z) := map (fun c => (c_key c, c_handler c)) cs.

  Lemma pending_put : forall m k sl ks, ~ In k ks -> flat_map (pending_in (put_slot m k sl)) ks = flat_map (pending_in m) ks.
  Proof.
    intros m k sl ks. induction ks as [|k2 ks IH]; intros N; [reflexivity|]. cbn [flat_map]. rewrite IH by (intros C; apply N; right; exact C). f_equal.
    unfold pending_in. rewrite find_put. replace (same_key k k2) with false; [reflexivity|]. symmetry. apply same_key_neq. intros ->. apply N. left. reflexivity.
  Qed.

  Lemma blur_loop_ok : forall ks s, ordered (key_slots s) -> NoDup ks -> (forall k, In k ks -> exists sl, find_slot (key_slots s) k = Some sl) ->
    (forall k sl, In k ks -> find_slot (key_slots s) k = Some sl -> is_pressed sl = true -> handler_index sl < num_handlers s) ->
    exists ok s2 cs rest, blur_loop e ks s = Some (ok, s2) /\ calls s2 = calls s ++ cs /\ pairs cs ++ rest = flat_map (pending_in (key_slots s)) ks /\
      Forall (fun c => c_down c = false) cs /\
      (if ok : bool then rest = [] /\ Forall (fun c => c_proceed c = true) cs
       else exists before c, cs = before ++ [c] /\ c_proceed c = false /\ Forall (fun c => c_proceed c = true) before) /\
      num_handlers s2 = num_handlers s /\ on_blur_in_progress s2 = (if ok then false else on_blur_in_progress s) /\
      mode s2 = fold_left (fun m c => sets_mode e (c_handler c) (c_down c) m) cs (mode s) /\ ordered (key_slots s2) /\
      (forall k, (find_slot (key_slots s2) k = find_slot (key_slots s) k /\ ~ In k (map c_key cs) /\ (ok = true -> ~ In k ks)) \/
        (exists sl, find_slot (key_slots s) k = Some sl /\ find_slot (key_slots s2) k = Some (reset_key_state sl) /\ In k ks /\
           (In k (map c_key cs) \/ is_pressed sl = false \/ handler_index sl < 0))).
  Proof.
    induction ks as [|k ks IH]; intros s O Nd Ex Rg.
    - exists true. eexists. exists [], []. split; [reflexivity|]. cbn [calls num_handlers on_blur_in_progress mode key_slots].
      rewrite app_nil_r. do 8 (split; [auto|]). intros k. left. repeat split; auto.
    - cbn [blur_loop]. destruct (Ex k (or_introl eq_refl)) as (sl & F). rewrite F. cbn [obind]. inversion Nd as [|? ? Nk Nd']; subst.
      set (s1 := with_slot s k (reset_key_state sl)).
      assert (O1 : ordered (key_slots s1)) by (apply put_ordered; exact O).
      assert (Fs : forall k', find_slot (key_slots s1) k' = if same_key k k' then Some (reset_key_state sl) else find_slot (key_slots s) k') by (intros k'; apply find_put).
      assert (Fn : forall k', In k' ks -> find_slot (key_slots s1) k' = find_slot (key_slots s) k').
      { intros k' I. rewrite Fs. replace (same_key k k') with false; [reflexivity|]. symmetry. apply same_key_neq. intros ->. contradiction. }
      assert (Ex1 : forall k', In k' ks -> exists sl', find_slot (key_slots s1) k' = Some sl') by (intros k' I; rewrite Fn by exact I; apply Ex; right; exact I).
      assert (Rg1 : forall k' sl', In k' ks -> find_slot (key_slots s1) k' = Some sl' -> is_pressed sl' = true -> handler_index sl' < num_handlers s1).
      { intros k' sl' I F'. rewrite Fn in F' by exact I. apply Rg with (k := k'); [right; exact I|exact F']. }
      assert (Pd : flat_map (pending_in (key_slots s1)) ks = flat_map (pending_in (key_slots s)) ks) by (apply pending_put; exact Nk).
      cbn [flat_map]. unfold pending_in at 1. rewrite F. destruct (negb (is_pressed sl) || (handler_index sl <? 0)) eqn:P.
      + destruct (IH s1 O1 Nd' Ex1 Rg1) as (ok & s2 & cs & rest & Eb & Ec & Ep & Ed & Ek & En & Eo & Em & Eor & Ef).
        exists ok, s2, cs, rest. split; [exact Eb|]. split; [exact Ec|]. split; [rewrite Ep; exact Pd|]. split; [exact Ed|]. split; [exact Ek|].
        split; [exact En|]. split; [exact Eo|]. split; [exact Em|]. split; [exact Eor|].
        intros k'. destruct (same_key k k') eqn:K.
        * apply same_key_eq in K. subst k'. right. exists sl. split; [exact F|]. destruct (Ef k) as [(E1 & _)|(sl' & _ & _ & C & _)]; [|contradiction].
          split; [rewrite E1, Fs, same_key_refl; reflexivity|]. split; [left; reflexivity|]. right. apply orb_true_iff in P. rewrite negb_true_iff, Z.ltb_lt in P. exact P.
        * specialize (Fs k'). rewrite K in Fs. apply same_key_neq in K. destruct (Ef k') as [(E1 & E2 & E3)|(sl' & E1 & E2 & E3 & E4)].
          -- left. rewrite <- Fs. split; [exact E1|]. split; [exact E2|]. intros E [C|C]; [contradiction|]. apply (E3 E C).
          -- right. exists sl'. rewrite <- Fs. split; [exact E1|]. split; [exact E2|]. split; [right; exact E3|exact E4].
      + apply orb_false_iff in P. rewrite negb_false_iff, Z.ltb_ge in P. destruct P as [P Hi].
        assert (Rh : 0 <= handler_index sl < num_handlers s1) by (split; [exact Hi|apply Rg with (k := k); auto; left; reflexivity]).
        destruct (call_ok s1 k (handler_index sl) false Rh) as (r & ->). cbn [obind]. cbn [key_slots]. rewrite Nat.eqb_refl. cbn [negb].
        set (s3 := KB (num_handlers s1) (key_slots s1) (sets_mode e (handler_index sl) false (mode s1)) (on_blur_in_progress s1) (calls s1 ++ [Call k (handler_index sl) false r])).
        destruct r.
        * destruct (IH s3 O1 Nd' Ex1 Rg1) as (ok & s2 & cs & rest & Eb & Ec & Ep & Ed & Ek & En & Eo & Em & Eor & Ef).
          exists ok, s2, (Call k (handler_index sl) false true :: cs), rest. split; [exact Eb|]. split; [rewrite Ec; cbn [calls s3]; rewrite <- app_assoc; reflexivity|].
          split; [cbn [pairs map c_key c_handler app]; f_equal; change (pairs cs ++ rest = flat_map (pending_in (key_slots s)) ks); rewrite Ep; exact Pd|].
          split; [constructor; [reflexivity|exact Ed]|]. split.
          { destruct ok.
            - destruct Ek as [-> Ek]. split; [reflexivity|]. constructor; [reflexivity|exact Ek].
            - destruct Ek as (b & c & -> & Ec2 & Ek). exists (Call k (handler_index sl) false true :: b), c. split; [reflexivity|]. split; [exact Ec2|]. constructor; [reflexivity|exact Ek]. }
          split; [exact En|]. split; [exact Eo|]. split; [exact Em|]. split; [exact Eor|].
          intros k'. cbn [map c_key]. destruct (same_key k k') eqn:K.
          -- apply same_key_eq in K. subst k'. right. exists sl. split; [exact F|]. destruct (Ef k) as [(E1 & _)|(sl' & _ & _ & C & _)]; [|contradiction].
             split; [rewrite E1; cbn [s3 key_slots]; rewrite Fs, same_key_refl; reflexivity|]. split; [left; reflexivity|]. left. left. reflexivity.
          -- specialize (Fs k'). rewrite K in Fs. apply same_key_neq in K. cbn [s3 key_slots] in Ef. destruct (Ef k') as [(E1 & E2 & E3)|(sl' & E1 & E2 & E3 & E4)].
             ++ left. rewrite <- Fs. split; [exact E1|]. split; [intros [C|C]; contradiction|]. intros E [C|C]; [contradiction|]. apply (E3 E C).
             ++ right. exists sl'. rewrite <- Fs. split; [exact E1|]. split; [exact E2|]. split; [right; exact E3|]. destruct E4 as [E4|E4]; [left; right; exact E4|right; exact E4].
        * exists false, s3, [Call k (handler_index sl) false false], (flat_map (pending_in (key_slots s)) ks). split; [reflexivity|]. split; [reflexivity|]. split; [reflexivity|].
          split; [repeat constructor|]. split; [exists [], (Call k (handler_index sl) false false); repeat split; constructor|].
          split; [reflexivity|]. split; [reflexivity|]. split; [reflexivity|]. split; [exact O1|].
          intros k'. cbn [map c_key s3 key_slots]. destruct (same_key k k') eqn:K.
          -- rewrite Fs, K. apply same_key_eq in K. subst k'. right. exists sl. split; [exact F|]. split; [reflexivity|]. split; [left; reflexivity|]. left. left. reflexivity.
          -- rewrite Fs, K. apply same_key_neq in K. left. split; [reflexivity|]. split; [intros [C|[]]; contradiction|]. discriminate.
  Qed.

  Lemma pending_sorted : forall m ks, StronglySorted kless ks ->
    StronglySorted (fun a b : key * Z => key_less (fst a) (fst b) = true) (flat_map (pending_in m) ks).
  Proof.
    intros m ks H. induction H as [|k ks H IH F]; [constructor|]. cbn [flat_map]. unfold pending_in at 1. destruct (find_slot m k) as [sl|]; [|exact IH].
    destruct (_ || _); [exact IH|]. cbn [app]. constructor; [exact IH|]. apply Forall_forall. intros [k2 h2] I. apply in_flat_map in I. destruct I as (k3 & I & J).
    unfold pending_in in J. destruct (find_slot m k3) as [sl3|]; [|contradiction]. destruct (_ || _); [contradiction|]. destruct J as [J|[]]. injection J as -> _.
    cbn [fst]. rewrite Forall_forall in F. apply F. exact I.
  Qed.

  Lemma pending_all : forall s l k h, kbrel e s l -> (active l k = Some h <-> In (k, h) (flat_map (pending_in (key_slots s)) (map fst (key_slots s)))).
  Proof.
    intros s l k h H. rewrite in_flat_map. pose proof (kr_slot _ _ _ H k) as X. split.
    - intros A. destruct (find_slot (key_slots s) k) as [sl|] eqn:F.
      + exists k. split; [apply find_in; eauto|]. unfold pending_in. rewrite F. apply (pending _ _ _ _ X) in A. destruct A as (P & <- & G).
        rewrite P. replace (handler_index sl <? 0) with false by (symmetry; apply Z.ltb_ge; exact G). left. reflexivity.
      + destruct (unbound_quiet l k X) as (_ & _ & C & _). congruence.
    - intros (k2 & I & J). unfold pending_in in J. destruct (find_slot (key_slots s) k2) as [sl|] eqn:F; [|contradiction].
      destruct (_ || _) eqn:P; [contradiction|]. destruct J as [J|[]]. injection J as -> <-. rewrite F in X. apply (pending _ _ _ _ X).
      apply orb_false_iff in P. rewrite negb_false_iff, Z.ltb_ge in P. tauto.
  Qed.

  Lemma blurred : forall s l ev, kbrel e s l -> ev = Blur \/ (ev = Resume /\ blurring l = true) ->
    goes_on s l ev (blur_loop e (map fst (key_slots s)) (KB (num_handlers s) (key_slots s) (mode s) true (calls s))).
  Proof.
    intros s l ev H Ev. set (s0 := KB (num_handlers s) (key_slots s) (mode s) true (calls s)).
    destruct (blur_loop_ok (map fst (key_slots s)) s0) as (ok & s2 & cs & rest & Eb & Ec & Ep & Ed & Ek & En & Eo & Em & Eor & Ef).
    - apply (kr_order _ _ _ H).
    - apply ordered_nodup, (kr_order _ _ _ H).
    - intros k I. apply find_in. exact I.
    - intros k sl I F P. pose proof (kb_slot _ _ _ _ _ H F) as X. cbn [s0 num_handlers]. rewrite (kr_num _ _ _ H).
      destruct (Z_lt_le_dec (handler_index sl) 0) as [N|N].
      + pose proof (sk_state _ _ _ X) as [K|(_ & C & _)]; [|congruence]. assert (Hd : held l k = true) by (rewrite <- (kn_pressed _ _ _ K); exact P).
        assert (0 <= registered l) by (clear; induction l as [|en l IH]; cbn; [lia|]; destruct (en_event en); auto; destruct (en_ok en); lia). lia.
      + apply (sk_active _ _ _ X). apply (pending _ _ _ _ X). auto.
    - cbn [s0 num_handlers key_slots mode on_blur_in_progress calls] in *.
      exists ok, s2, cs. split; [exact Eb|]. split; [exact Ec|].
      assert (Re : calls_released l cs ok).
      { exists rest. change (map (fun c : call => (c_key c, c_handler c)) cs) with (pairs cs). rewrite Ep.
        split; [intros k h; apply pending_all; exact H|]. split; [apply pending_sorted, (kr_order _ _ _ H)|]. split; [exact Ed|exact Ek]. }
      split.
      { split; [exact (kr_mode _ _ _ H)|]. destruct Ev as [->|[-> B]]; [exact Re|]. cbn [en_event]. rewrite B. exact Re. }
      set (en := Entry ev (mode s) cs ok).
      assert (Fg : forall k, forgets en l k = (ok || existsb (fun c => same_key (c_key c) k) cs)%bool).
      { intros k. destruct Ev as [->|[-> B]]; cbn [forgets en en_event en_ok en_calls]; [reflexivity|]. rewrite B. reflexivity. }
      assert (Bl : blurring (en :: l) = negb ok) by (destruct Ev as [->|[-> B]]; cbn [blurring en en_event en_ok]; [|rewrite B]; reflexivity).
      assert (Ic : forall k, existsb (fun c => same_key (c_key c) k) cs = true <-> In k (map c_key cs)).
      { intros k. rewrite existsb_exists, in_map_iff. split; intros (c & A & B); exists c.
        - apply same_key_eq in B. auto.
        - subst k. rewrite same_key_refl. auto. }
      constructor.
      + rewrite En, (kr_num _ _ _ H). destruct Ev as [->|[-> B]]; reflexivity.
      + rewrite Eo, Bl. destruct ok; reflexivity.
      + rewrite Ec, all_calls_cons, (kr_calls _ _ _ H). reflexivity.
      + rewrite Em, all_calls_cons, mode_after_app, (kr_mode _ _ _ H). reflexivity.
      + exact Eor.
      + assert (Nc : match en_event en with Bind b => False | Down _ _ | Up _ _ => False | _ => True end) by (destruct Ev as [->|[-> B]]; exact I).
        assert (Rg2 : registered (en :: l) = registered l) by (destruct Ev as [->|[-> B]]; reflexivity).
        assert (Kept : forall k, has_binding (en :: l) k = has_binding l k /\ most (en :: l) k = most l k /\ (forall m n, bound (en :: l) k m n = bound l k m n)).
        { intros k. destruct Ev as [->|[-> B]]; cbn; auto. }
        assert (Rs : forall k sl, slot_ok l k sl -> forgets en l k = true \/ (ok = false /\ active l k = None /\ forgets en l k = false) -> slot_ok (en :: l) k (reset_key_state sl)).
        { intros k sl [X1 X2 X3 X4 X5 X6 X7 X8] C. destruct (Kept k) as (K1 & K2 & K3).
          assert (A : active (en :: l) k = None).
          { cbn [active]. destruct C as [C|(_ & C & D)]; [rewrite C; reflexivity|]. rewrite D, C. destruct (en_event en); try reflexivity; contradiction. }
          constructor; rewrite ?K1, ?K2, ?Rg2; cbn [reset_key_state handlers max_multiplicity]; auto.
          - intros m n. rewrite K3. apply X2.
          - intros m n h E. rewrite K3 in E. eauto.
          - rewrite A. discriminate.
          - destruct C as [C|(C & _)].
            + left. constructor; cbn [held presses reset_key_state is_pressed multiplicity]; rewrite ?C; try reflexivity; try discriminate. intros _. exact A.
            + right. unfold forgotten. rewrite Bl, C. auto. }
        intros k. pose proof (kr_slot _ _ _ H k) as X. destruct (Ef k) as [(E1 & E2 & E3)|(sl & E1 & E2 & E3 & E4)].
        * rewrite E1. destruct (find_slot (key_slots s) k) as [sl|] eqn:F; [|rewrite has_unconcerned; [exact X|destruct (en_event en); tauto]].
          assert (In k (map fst (key_slots s))) by (apply find_in; eauto). destruct ok; [exfalso; apply E3; auto|].
          assert (Ff : forgets en l k = false).
          { rewrite Fg. cbn [orb]. destruct (existsb _ cs) eqn:C; [|reflexivity]. apply Ic in C. contradiction. }
          apply slot_ok_unconcerned; auto; [destruct (en_event en); tauto|lia].
        * rewrite E1 in X. rewrite E2. apply Rs; [exact X|]. rewrite Fg. destruct ok; [left; reflexivity|]. cbn [orb].
          destruct (existsb _ cs) eqn:C; [left; reflexivity|]. right. split; [reflexivity|]. split; [|reflexivity].
          destruct (active l k) as [h|] eqn:A; [|reflexivity]. exfalso. apply (pending _ _ _ _ X) in A. destruct A as (A1 & A2 & A3).
          destruct E4 as [E4|[E4|E4]]; [apply Ic in E4; congruence|congruence|lia].
  Qed.

  Lemma blur_ok : forall s l, kbrel e s l -> goes_on s l Blur (step e s Blur).
  Proof. intros s l H. cbn [step]. unfold on_blur, resume_incomplete_on_blur. cbn [on_blur_in_progress key_slots]. apply blurred; auto. Qed.
  Lemma resume_ok : forall s l, kbrel e s l -> goes_on s l Resume (step e s Resume).
  Proof.
    intros s l H. cbn [step]. unfold resume_if_any, resume_incomplete_on_blur. pose proof (kr_blur _ _ _ H) as B. destruct (on_blur_in_progress s) eqn:O.
    - replace s with (KB (num_handlers s) (key_slots s) (mode s) true (calls s)) at 3 by (destruct s; cbn in *; subst; reflexivity). apply blurred; auto.
    - apply nothing_done; auto.
      + split; [exact (kr_mode _ _ _ H)|]. cbn [en_event]. rewrite <- B. auto.
      + intros k. cbn [held presses active forgets en_event]. rewrite <- B. auto.
  Qed.

  Lemma step_ok : forall s l ev, kbrel e s l -> allowed l ev -> goes_on s l ev (step e s ev).
  Proof.
    intros s l ev H A. destruct ev as [|b|k t|k t| |]; cbn [allowed] in A.
    - apply register_ok; exact H.
    - apply bind_ok; assumption.
    - destruct A. apply down_ok; assumption.
    - destruct A. apply up_ok; assumption.
    - apply blur_ok; assumption.
    - apply resume_ok; assumption.
  Qed.

  Lemma allowed_dec : forall l ev, allowed l ev \/ ~ allowed l ev.
  Proof.
    intros l ev. destruct ev as [|b|k t|k t| |]; cbn [allowed].
    - auto.
    - lia.
    - destruct (blurring l); [right; intros [C _]; discriminate|]. destruct (Z_lt_le_dec t 0), (Z_lt_le_dec time_max t); [right; lia|right; lia|right; lia|left; lia].
    - destruct (blurring l); [right; intros [C _]; discriminate|]. destruct (Z_lt_le_dec t 0), (Z_lt_le_dec time_max t); [right; lia|right; lia|right; lia|left; lia].
    - destruct (blurring l); [right; discriminate|left; reflexivity].
    - auto.
  Qed.

  Lemma run_ok : forall evs s l, kbrel e s l -> obeys e l evs (run e s evs).
  Proof.
    induction evs as [|ev evs IH]; intros s l H; [constructor|]. destruct (allowed_dec l ev) as [A|A]; [|apply obeys_illegal; exact A].
    destruct (step_ok s l ev H A) as (ok & s2 & cs & E & Ec & Ft & H2). cbn [run]. rewrite E, Ec, skipn_app, skipn_all, Nat.sub_diag. cbn [skipn app].
    apply obeys_step; auto.
  Qed.
End Step.
