(* KnuthWrapper: the data structures *)
From Coq Require Import ZArith Bool List Lia ZifyBool.
From Verif Require Import ArrLib WordWrapModel WordWrapSpec WordWrapProofs.
Import ListNotations.
Open Scope Z_scope.

Lemma set_nth_lt {A} (l : list A) n x : (n < length l)%nat -> exists l', set_nth l n x = Some l'.
Proof. intros H. eexists. now apply set_nth_some. Qed.

Lemma nth_lt {A} (l : list A) n x : nth_error l n = Some x -> (n < length l)%nat.
Proof. intros H. apply nth_error_Some. congruence. Qed.

Lemma nth_some {A} (l : list A) n : (n < length l)%nat -> exists x, nth_error l n = Some x.
Proof. intros H. destruct (nth_error l n) eqn:E; [eauto|]. apply nth_error_None in E. lia. Qed.

Lemma nth_set_same {A} (l l' : list A) n x : set_nth l n x = Some l' -> nth_error l' n = Some x.
Proof. intros H. rewrite (nth_error_set_nth _ _ _ _ n H), Nat.eqb_refl. reflexivity. Qed.

Lemma nth_set_other {A} (l l' : list A) n x i : set_nth l n x = Some l' -> i <> n -> nth_error l' i = nth_error l i.
Proof. intros H Hi. rewrite (nth_error_set_nth _ _ _ _ i H). destruct (Nat.eqb_spec i n); [contradiction|reflexivity]. Qed.

Lemma set_set {A} (l l1 l2 l3 : list A) n x y : set_nth l n x = Some l1 -> set_nth l1 n y = Some l2 -> set_nth l n y = Some l3 -> l2 = l3.
Proof.
  revert n l1 l2 l3. induction l as [|a l IH]; intros n l1 l2 l3 H1 H2 H3; [discriminate|].
  destruct n; cbn in *.
  - injection H1 as <-. cbn in H2. congruence.
  - destruct (set_nth l n x) as [m1|] eqn:E1; [|discriminate]. cbn in H1. injection H1 as <-. cbn in H2.
    destruct (set_nth m1 n y) as [m2|] eqn:E2; [|discriminate]. cbn in H2. injection H2 as <-.
    destruct (set_nth l n y) as [m3|] eqn:E3; [|discriminate]. cbn in H3. injection H3 as <-. f_equal. eauto.
Qed.

(* linked lists of breakpoints: the word indices and the nodes *)
Inductive chain (bps : list breakpoint) : option nat -> list nat -> list nat -> Prop :=
| chain_nil : chain bps None [] []
| chain_cons i b l F : nth_error bps i = Some b -> chain bps (bp_next b) l F -> chain bps (Some i) (bp_word_index b :: l) (i :: F).

Lemma chain_fun bps i l F : chain bps i l F -> forall l' F', chain bps i l' F' -> l' = l /\ F' = F.
Proof.
  induction 1 as [|i b l F Hb Hc IH]; intros l' F' H'; inversion H' as [|? b' l2 F2 Hb' Hc']; subst; [auto|].
  rewrite Hb in Hb'. injection Hb' as <-. destruct (IH _ _ Hc') as [-> ->]. auto.
Qed.

Lemma chain_frame bps bps' i l F : chain bps i l F -> (forall k, In k F -> nth_error bps' k = nth_error bps k) -> chain bps' i l F.
Proof.
  induction 1 as [|i b l F Hb Hc IH]; intros H; constructor.
  - rewrite H; [assumption|left; reflexivity].
  - apply IH. intros k Hk. apply H. right. assumption.
Qed.

Lemma chain_lt bps i l F : chain bps i l F -> forall k, In k F -> (k < length bps)%nat.
Proof. induction 1 as [|i b l F Hb Hc IH]; intros k [].  - subst. eapply nth_lt; eauto. - auto. Qed.

Lemma chain_tail bps i l F : chain bps i l F -> forall k, In k F -> exists l2 F2, chain bps (Some k) l2 F2 /\ (length F2 <= length F)%nat.
Proof.
  induction 1 as [|i b l F Hb Hc IH]; intros k Hk; [destruct Hk|]. destruct Hk as [<-|Hk].
  - exists (bp_word_index b :: l), (i :: F). split; [constructor; assumption|lia].
  - destruct (IH k Hk) as (l2 & F2 & H & HL). exists l2, F2. split; [assumption|cbn; lia].
Qed.

Lemma chain_nodup bps i b l F : nth_error bps i = Some b -> chain bps (bp_next b) l F -> ~ In i F.
Proof.
  intros Hb Hc Hi. destruct (chain_tail _ _ _ _ Hc i Hi) as (l2 & F2 & H & HL).
  destruct (chain_fun _ _ _ _ (chain_cons _ _ _ _ _ Hb Hc) _ _ H) as [_ ->]. cbn in HL. lia.
Qed.

Section Mem.
  Variables N NG : nat.
  Variable max : Z.
  Hypothesis Hmax : 1 <= max.
  (* the layouts: geometry index, first word, breakpoints, cost *)
  Variable lay : nat -> nat -> list nat -> Z -> Prop.

  Definition below (g w : nat) (b : Z) : Prop := forall l c, lay g w l c -> b <= c.
  Definition good (g w : nat) (x : result) : Prop :=
    below g w (res_badness x) /\ (res_kind x = Indefinite -> 1 <= res_badness x).

  Record Inv (cache : list nat) (results : list result) (bps : list breakpoint) (unused : option nat)
    (keys : list (nat * nat)) (act : list nat) : Prop := {
    v_len : length keys = length results;
    v_cache_len : length cache = (N * NG)%nat;
    v_cache : forall g w r, (g < NG)%nat -> (w < N)%nat -> nth_error cache (g * N + w) = Some (S r) ->
      nth_error keys r = Some (g, w);
    v_bad : forall r x, nth_error results r = Some x -> 0 <= res_badness x <= max;
    v_chain : forall r x g w i, nth_error results r = Some x -> nth_error keys r = Some (g, w) ->
      res_kind x = Definite i -> exists l F, chain bps i l F /\ lay g w l (res_badness x) /\ res_badness x < max;
    v_good : forall r x g w, nth_error results r = Some x -> nth_error keys r = Some (g, w) -> ~ In r act -> good g w x;
    v_head : forall r x h r' x' i l F, In r act -> nth_error results r = Some x -> res_kind x = Definite (Some h) ->
      r' <> r -> nth_error results r' = Some x' -> res_kind x' = Definite i -> chain bps i l F -> ~ In h F;
    v_free : exists lf Ff, chain bps unused lf Ff /\
      forall r x i l F, nth_error results r = Some x -> res_kind x = Definite i -> chain bps i l F ->
      forall k, In k F -> ~ In k Ff }.

  Lemma key_of cache results bps unused keys act r x : Inv cache results bps unused keys act ->
    nth_error results r = Some x -> exists g w, nth_error keys r = Some (g, w).
  Proof.
    intros HI Hr. apply nth_lt in Hr. rewrite <- (v_len _ _ _ _ _ _ HI) in Hr. apply nth_some in Hr as [[g w] H]. eauto.
  Qed.

  (* the current result becomes good *)
  Lemma inv_finish cache results bps unused keys ri act x g w : Inv cache results bps unused keys (ri :: act) ->
    nth_error results ri = Some x -> nth_error keys ri = Some (g, w) -> good g w x ->
    Inv cache results bps unused keys act.
  Proof.
    intros [H1 H2 H3 H4 H5 H6 H7 H8] Hx Hk Hg. constructor; try assumption.
    - intros r y g' w' Hy Hk' Hn. destruct (Nat.eq_dec r ri) as [->|Hne].
      + rewrite Hx in Hy. injection Hy as <-. rewrite Hk in Hk'. injection Hk' as <- <-. assumption.
      + apply (H6 r y g' w' Hy Hk'). intros [|]; [congruence|contradiction].
    - intros r y h r' y' i l F Hr. apply (H7 r y h r' y' i l F). right. assumption.
  Qed.

  (* an indefinite result is refreshed and becomes the current one *)
  Lemma inv_refresh cache results bps unused keys act r x : Inv cache results bps unused keys act ->
    nth_error results r = Some x -> res_kind x = Indefinite ->
    exists results', set_nth results r (Result max Indefinite) = Some results' /\
      Inv cache results' bps unused keys (r :: act) /\ (forall k, k <> r -> nth_error results' k = nth_error results k).
  Proof.
    intros [H1 H2 H3 H4 H5 H6 H7 H8] Hx Hk. destruct (set_nth_lt results r (Result max Indefinite) (nth_lt _ _ _ Hx)) as [results' E].
    exists results'. split; [assumption|].
    assert (Hcase : forall k y, nth_error results' k = Some y -> (k = r /\ y = Result max Indefinite) \/ (k <> r /\ nth_error results k = Some y)).
    { intros k y Hy. rewrite (nth_error_set_nth _ _ _ _ k E) in Hy. destruct (Nat.eqb_spec k r); [left; split; congruence|auto]. }
    split.
    2:{ intros k Hne. apply (nth_set_other _ _ _ _ _ E Hne). }
    constructor; try assumption.
    - rewrite (set_nth_length _ _ _ _ E). assumption.
    - intros k y Hy. destruct (Hcase _ _ Hy) as [[-> ->]|[_ Hy']]; [cbn; lia|eauto].
    - intros k y g w i Hy Hky Hd. destruct (Hcase _ _ Hy) as [[-> ->]|[_ Hy']]; [discriminate|eauto].
    - intros k y g w Hy Hky Hn. destruct (Hcase _ _ Hy) as [[-> ->]|[_ Hy']]; [exfalso; apply Hn; left; reflexivity|].
      apply (H6 k y g w Hy' Hky). intros Hi. apply Hn. right. assumption.
    - intros k y h k' y' i l F Hin Hy Hd Hne Hy' Hd' Hc.
      destruct (Hcase _ _ Hy) as [[-> ->]|[Hn1 Hy1]]; [discriminate|].
      destruct (Hcase _ _ Hy') as [[-> ->]|[Hn2 Hy2]]; [discriminate|].
      destruct Hin as [|Hin]; [congruence|]. eapply H7; eauto.
    - destruct H8 as (lf & Ff & Hc & Hd). exists lf, Ff. split; [assumption|]. intros k y i l F Hy Hky.
      destruct (Hcase _ _ Hy) as [[-> ->]|[_ Hy']]; [discriminate|eauto].
  Qed.

  (* a new result *)
  Lemma inv_new cache results bps unused keys act g w : Inv cache results bps unused keys act ->
    (g < NG)%nat -> (w < N)%nat ->
    exists cache', set_nth cache (g * N + w) (S (length results)) = Some cache' /\
      Inv cache' (results ++ [Result max Indefinite]) bps unused (keys ++ [(g, w)]) (length results :: act).
  Proof.
    intros [H1 H2 H3 H4 H5 H6 H7 H8] Hg Hw.
    destruct (set_nth_lt cache (g * N + w) (S (length results))) as [cache' E]; [rewrite H2; nia|].
    exists cache'. split; [assumption|].
    assert (Hcase : forall k y, nth_error (results ++ [Result max Indefinite]) k = Some y ->
      (k = length results /\ y = Result max Indefinite) \/ ((k < length results)%nat /\ nth_error results k = Some y)).
    { intros k y Hy. destruct (Nat.lt_ge_cases k (length results)).
      - rewrite nth_error_app1 in Hy by assumption. auto.
      - pose proof (nth_lt _ _ _ Hy) as Hl. rewrite app_length in Hl. cbn in Hl. assert (k = length results) by lia. subst k.
        rewrite nth_error_app2, Nat.sub_diag in Hy by lia. cbn in Hy. left. split; congruence. }
    assert (Hkey : forall k, (k < length results)%nat -> nth_error (keys ++ [(g, w)]) k = nth_error keys k).
    { intros k Hk. apply nth_error_app1. lia. }
    constructor.
    - rewrite !app_length. cbn. lia.
    - rewrite (set_nth_length _ _ _ _ E). assumption.
    - intros g' w' r Hg' Hw' Hr. rewrite (nth_error_set_nth _ _ _ _ _ E) in Hr.
      destruct (Nat.eqb_spec (g' * N + w') (g * N + w)) as [Eq|Ne].
      + injection Hr as <-. assert (g' = g /\ w' = w) as [-> ->].
        { assert (g' = g) by nia. subst. split; [reflexivity|lia]. }
        rewrite <- H1. rewrite nth_error_app2, Nat.sub_diag by lia. reflexivity.
      + apply H3 in Hr; [|assumption|assumption]. rewrite nth_error_app1; [assumption|]. apply nth_error_Some. congruence.
    - intros k y Hy. destruct (Hcase _ _ Hy) as [[-> ->]|[_ Hy']]; [cbn; lia|eauto].
    - intros k y g' w' i Hy Hky Hd. destruct (Hcase _ _ Hy) as [[-> ->]|[Hl Hy']]; [discriminate|]. rewrite Hkey in Hky by assumption. eauto.
    - intros k y g' w' Hy Hky Hn. destruct (Hcase _ _ Hy) as [[-> ->]|[Hl Hy']]; [exfalso; apply Hn; left; reflexivity|].
      rewrite Hkey in Hky by assumption. apply (H6 k y g' w' Hy' Hky). intros Hi. apply Hn. right. assumption.
    - intros k y h k' y' i l F Hin Hy Hd Hne Hy' Hd' Hc.
      destruct (Hcase _ _ Hy) as [[-> ->]|[Hl1 Hy1]]; [discriminate|].
      destruct (Hcase _ _ Hy') as [[-> ->]|[Hl2 Hy2]]; [discriminate|].
      destruct Hin as [|Hin]; [lia|]. eapply H7; eauto.
    - destruct H8 as (lf & Ff & Hc & Hd). exists lf, Ff. split; [assumption|]. intros k y i l F Hy Hky.
      destruct (Hcase _ _ Hy) as [[-> ->]|[_ Hy']]; [discriminate|eauto].
  Qed.

  (* the current result becomes indefinite *)
  Lemma inv_indef cache results bps unused keys ri act x b : Inv cache results bps unused keys (ri :: act) ->
    nth_error results ri = Some x -> 0 <= b <= max ->
    exists bps' unused' results', recycle_breakpoint bps unused x = Some (bps', unused') /\
      set_nth results ri (Result b Indefinite) = Some results' /\
      Inv cache results' bps' unused' keys (ri :: act).
  Proof.
    intros [H1 H2 H3 H4 H5 H6 H7 H8] Hx Hb.
    destruct (set_nth_lt results ri (Result b Indefinite) (nth_lt _ _ _ Hx)) as [results' E].
    assert (Hcase : forall k y, nth_error results' k = Some y -> (k = ri /\ y = Result b Indefinite) \/ (k <> ri /\ nth_error results k = Some y)).
    { intros k y Hy. rewrite (nth_error_set_nth _ _ _ _ k E) in Hy. destruct (Nat.eqb_spec k ri); [left; split; congruence|auto]. }
    assert (Hrec : exists bps' unused', recycle_breakpoint bps unused x = Some (bps', unused') /\
      (forall r y i l F, r <> ri -> nth_error results r = Some y -> res_kind y = Definite i -> chain bps i l F ->
         forall k, In k F -> nth_error bps' k = nth_error bps k) /\
      exists lf Ff, chain bps' unused' lf Ff /\
        forall r y i l F, r <> ri -> nth_error results r = Some y -> res_kind y = Definite i -> chain bps i l F ->
        forall k, In k F -> ~ In k Ff).
    { unfold recycle_breakpoint. destruct H8 as (lf & Ff & Hc & Hd).
      destruct (res_kind x) as [|[h|]] eqn:Ek.
      - exists bps, unused. split; [reflexivity|]. split; [reflexivity|]. exists lf, Ff. split; [assumption|]. eauto.
      - destruct (key_of cache results bps unused keys (ri :: act) ri x) as (g & w & Hk); [constructor; eauto|assumption|].
        destruct (H5 _ _ _ _ _ Hx Hk Ek) as (l & F & Hch & _). inversion Hch as [|? bb l2 F2 Hbb Hch2]; subst.
        rewrite Hbb. cbn [obind].
        destruct (set_nth_lt bps h (Breakpoint (bp_word_index bb) unused) (nth_lt _ _ _ Hbb)) as [bps' Eb].
        rewrite Eb. cbn [obind]. exists bps', (Some h). split; [reflexivity|].
        assert (Hother : forall r y i l F, r <> ri -> nth_error results r = Some y -> res_kind y = Definite i -> chain bps i l F ->
          forall k, In k F -> k <> h).
        { intros r y i l F Hr Hy Hdy Hcy k Hkf ->. revert Hkf. eapply (H7 ri x h r y i l F); eauto. left. reflexivity. }
        split.
        + intros r y i l F Hr Hy Hdy Hcy k Hkf. apply (nth_set_other _ _ _ _ _ Eb). eapply Hother; eauto.
        + assert (HhF : ~ In h Ff). { eapply (Hd ri x); eauto. left. reflexivity. }
          exists (bp_word_index bb :: lf), (h :: Ff). split.
          * apply (chain_cons bps' h (Breakpoint (bp_word_index bb) unused)); [apply (nth_set_same _ _ _ _ Eb)|]. cbn [bp_next].
            apply (chain_frame bps); [assumption|]. intros k Hkf. apply (nth_set_other _ _ _ _ _ Eb). intros ->. contradiction.
          * intros r y i l F Hr Hy Hdy Hcy k Hkf [<-|Hk2]; [eapply (Hother r y i l F); eauto|]. eapply (Hd r y); eauto.
      - exists bps, unused. split; [reflexivity|]. split; [reflexivity|]. exists lf, Ff. split; [assumption|]. eauto. }
    destruct Hrec as (bps' & unused' & Er & Hsame & lf & Ff & Hcf & Hdf).
    exists bps', unused', results'. split; [assumption|]. split; [assumption|].
    (* chains of the other results *)
    assert (Hback : forall r y g w i l F, r <> ri -> nth_error results r = Some y -> nth_error keys r = Some (g, w) -> res_kind y = Definite i ->
      chain bps' i l F -> chain bps i l F).
    { intros r y g w i l F Hr Hy Hky Hdy Hc'. destruct (H5 _ _ _ _ _ Hy Hky Hdy) as (l0 & F0 & Hc0 & _).
      pose proof (chain_frame _ bps' _ _ _ Hc0 (Hsame _ _ _ _ _ Hr Hy Hdy Hc0)) as Hc0'.
      destruct (chain_fun _ _ _ _ Hc0' _ _ Hc') as [-> ->]. assumption. }
    assert (Hkeys : forall r y, nth_error results r = Some y -> exists g w, nth_error keys r = Some (g, w)).
    { intros r y Hy. apply nth_lt in Hy. rewrite <- H1 in Hy. apply nth_some in Hy as [[g w] ?]. eauto. }
    constructor; try assumption.
    - rewrite (set_nth_length _ _ _ _ E). assumption.
    - intros k y Hy. destruct (Hcase _ _ Hy) as [[-> ->]|[_ Hy']]; [cbn; lia|eauto].
    - intros k y g w i Hy Hky Hdy. destruct (Hcase _ _ Hy) as [[-> ->]|[Hne Hy']]; [discriminate|].
      destruct (H5 _ _ _ _ _ Hy' Hky Hdy) as (l & F & Hc & Hl). exists l, F. split; [|assumption].
      apply (chain_frame bps); [assumption|]. eauto.
    - intros k y g w Hy Hky Hn. destruct (Hcase _ _ Hy) as [[-> ->]|[_ Hy']]; [exfalso; apply Hn; left; reflexivity|eauto].
    - intros k y h k' y' i l F Hin Hy Hdy Hne Hy' Hdy' Hc.
      destruct (Hcase _ _ Hy) as [[-> ->]|[Hn1 Hy1]]; [discriminate|].
      destruct (Hcase _ _ Hy') as [[-> ->]|[Hn2 Hy2]]; [discriminate|].
      destruct (Hkeys _ _ Hy2) as (g & w & Hk2). eapply (H7 k y h k' y'); eauto.
    - exists lf, Ff. split; [assumption|]. intros r y i l F Hy Hdy Hc.
      destruct (Hcase _ _ Hy) as [[-> ->]|[Hn1 Hy1]]; [discriminate|].
      destruct (Hkeys _ _ Hy1) as (g & w & Hk). eauto.
  Qed.

  (* the current result becomes definite: the tail of its breakpoints is that of another result *)
  Lemma inv_def cache results bps unused keys ri act x b xb j next g w gb lb F : Inv cache results bps unused keys (ri :: act) ->
    ~ In ri act -> nth_error results ri = Some x -> res_kind x = Indefinite -> nth_error keys ri = Some (g, w) -> 0 <= b < max ->
    (exists rb, rb <> ri /\ ~ In rb act /\ nth_error results rb = Some xb /\ nth_error keys rb = Some (gb, j)) -> res_kind xb = Definite next ->
    chain bps next lb F -> lay g w (j :: lb) b ->
    exists index bps' unused' results', alloc_breakpoint bps unused j next = Some (index, bps', unused') /\
      set_nth results ri (Result b (Definite (Some index))) = Some results' /\
      Inv cache results' bps' unused' keys (ri :: act).
  Proof.
    intros [H1 H2 H3 H4 H5 H6 H7 H8] Hact Hx Hxi Hkx Hb (rb & Hrb & Hrba & Hxb & Hkb) Hdb Hcb Hlay.
    destruct H8 as (lf & Ff & Hc & Hd).
    assert (Hal : exists index bps' unused', alloc_breakpoint bps unused j next = Some (index, bps', unused') /\
      (forall r y i l F, nth_error results r = Some y -> res_kind y = Definite i -> chain bps i l F -> ~ In index F /\
         forall k, In k F -> nth_error bps' k = nth_error bps k) /\
      nth_error bps' index = Some (Breakpoint j next) /\
      exists lf' Ff', chain bps' unused' lf' Ff' /\ ~ In index Ff' /\ (forall k, In k Ff' -> In k Ff)).
    { unfold alloc_breakpoint. inversion Hc as [|i bb l2 F2 Hbb Hch2]; subst.
      - exists (length bps), (bps ++ [Breakpoint j next]), None. split; [reflexivity|]. split.
        + intros r y i l F0 Hy Hdy Hcy. assert (Hlt := chain_lt _ _ _ _ Hcy). split.
          * intros Hi. apply Hlt in Hi. lia.
          * intros k Hk. apply nth_error_app1. auto.
        + split; [now rewrite nth_error_app2, Nat.sub_diag by lia|]. exists [], []. split; [constructor|]. split; auto.
      - rewrite Hbb. cbn [obind].
        destruct (set_nth_lt bps i (Breakpoint j next) (nth_lt _ _ _ Hbb)) as [bps' Eb]. rewrite Eb. cbn [obind].
        exists i, bps', (bp_next bb). split; [reflexivity|].
        pose proof (chain_nodup _ _ _ _ _ Hbb Hch2) as Hni.
        split; [|split; [apply (nth_set_same _ _ _ _ Eb)|]].
        + intros r y i0 l F0 Hy Hdy Hcy. assert (Hi : ~ In i F0).
          { intros Hi. apply (Hd r y i0 l F0 Hy Hdy Hcy i Hi). left. reflexivity. }
          split; [assumption|]. intros k Hk. apply (nth_set_other _ _ _ _ _ Eb). intros ->. contradiction.
        + exists l2, F2. split; [|split; [assumption|intros k Hk; right; assumption]].
          apply (chain_frame bps); [assumption|]. intros k Hk. apply (nth_set_other _ _ _ _ _ Eb). intros ->. contradiction. }
    destruct Hal as (index & bps' & unused' & Ea & Hsame & Hidx & lf' & Ff' & Hcf & Hif & Hff).
    destruct (set_nth_lt results ri (Result b (Definite (Some index))) (nth_lt _ _ _ Hx)) as [results' E].
    exists index, bps', unused', results'. split; [assumption|]. split; [assumption|].
    assert (Hcase : forall k y, nth_error results' k = Some y ->
      (k = ri /\ y = Result b (Definite (Some index))) \/ (k <> ri /\ nth_error results k = Some y)).
    { intros k y Hy. rewrite (nth_error_set_nth _ _ _ _ k E) in Hy. destruct (Nat.eqb_spec k ri); [left; split; congruence|auto]. }
    assert (Hkeys : forall r y, nth_error results r = Some y -> exists g w, nth_error keys r = Some (g, w)).
    { intros r y Hy. apply nth_lt in Hy. rewrite <- H1 in Hy. apply nth_some in Hy as [[g' w'] ?]. eauto. }
    assert (Hback : forall r y i l F, nth_error results r = Some y -> res_kind y = Definite i ->
      chain bps' i l F -> chain bps i l F).
    { intros r y i l F0 Hy Hdy Hc'. destruct (Hkeys _ _ Hy) as (g' & w' & Hky). destruct (H5 _ _ _ _ _ Hy Hky Hdy) as (l0 & F1 & Hc0 & _).
      pose proof (chain_frame _ bps' _ _ _ Hc0 (proj2 (Hsame _ _ _ _ _ Hy Hdy Hc0))) as Hc0'.
      destruct (chain_fun _ _ _ _ Hc0' _ _ Hc') as [-> ->]. assumption. }
    assert (Hnew : chain bps' (Some index) (j :: lb) (index :: F)).
    { apply (chain_cons bps' index (Breakpoint j next)); [assumption|]. cbn [bp_next].
      apply (chain_frame bps); [assumption|]. exact (proj2 (Hsame _ _ _ _ _ Hxb Hdb Hcb)). }
    constructor; try assumption.
    - rewrite (set_nth_length _ _ _ _ E). assumption.
    - intros k y Hy. destruct (Hcase _ _ Hy) as [[-> ->]|[_ Hy']]; [cbn; lia|eauto].
    - intros k y g' w' i Hy Hky Hdy. destruct (Hcase _ _ Hy) as [[-> ->]|[Hne Hy']].
      + cbn [res_kind] in Hdy. injection Hdy as <-. rewrite Hkx in Hky. injection Hky as <- <-. cbn [res_badness]. exists (j :: lb), (index :: F). split; [assumption|]. split; [assumption|lia].
      + destruct (H5 _ _ _ _ _ Hy' Hky Hdy) as (l & F0 & Hc0 & Hl). exists l, F0. split; [|assumption].
        apply (chain_frame bps); [assumption|]. exact (proj2 (Hsame _ _ _ _ _ Hy' Hdy Hc0)).
    - intros k y g' w' Hy Hky Hn. destruct (Hcase _ _ Hy) as [[-> ->]|[_ Hy']]; [exfalso; apply Hn; left; reflexivity|eauto].
    - intros k y h k' y' i l F0 Hin Hy Hdy Hne Hy' Hdy' Hc'.
      destruct (Hcase _ _ Hy) as [[-> ->]|[Hn1 Hy1]]; destruct (Hcase _ _ Hy') as [[-> ->]|[Hn2 Hy2]]; [congruence| | |].
      + cbn [res_kind] in Hdy. injection Hdy as <-. apply Hback with (r := k') (y := y') in Hc'; [|assumption|assumption].
        exact (proj1 (Hsame _ _ _ _ _ Hy2 Hdy' Hc')).
      + cbn [res_kind] in Hdy'. injection Hdy' as <-. destruct (chain_fun _ _ _ _ Hnew _ _ Hc') as [_ ->].
        intros [<-|Hh].
        * destruct (Hkeys _ _ Hy1) as (g' & w' & Hky). destruct (H5 _ _ _ _ _ Hy1 Hky Hdy) as (l0 & F1 & Hc0 & _).
          apply (proj1 (Hsame _ _ _ _ _ Hy1 Hdy Hc0)). inversion Hc0; subst. left. reflexivity.
        * revert Hh. eapply (H7 k y h rb xb); eauto. intros ->. destruct Hin as [|]; [congruence|contradiction].
      + apply Hback with (r := k') (y := y') in Hc'; [|assumption|assumption]. eapply (H7 k y h k' y'); eauto.
    - exists lf', Ff'. split; [assumption|]. intros r y i l F0 Hy Hdy Hc' k Hk.
      destruct (Hcase _ _ Hy) as [[-> ->]|[Hn1 Hy1]].
      + cbn [res_kind] in Hdy. injection Hdy as <-. destruct (chain_fun _ _ _ _ Hnew _ _ Hc') as [_ ->].
        destruct Hk as [<-|Hk]; [assumption|]. intros Hk2. apply Hff in Hk2. revert Hk2. eapply (Hd rb xb); eauto.
      + apply Hback with (r := r) (y := y) in Hc'; [|assumption|assumption]. intros Hk2. apply Hff in Hk2. revert Hk2. eapply (Hd r y); eauto.
  Qed.

  (* at the end of the text *)
  Lemma inv_leaf cache results bps unused keys ri act x g w : Inv cache results bps unused keys (ri :: act) ->
    nth_error results ri = Some x -> res_kind x = Indefinite -> nth_error keys ri = Some (g, w) -> lay g w [] 0 ->
    exists results', set_nth results ri (Result 0 (Definite None)) = Some results' /\
      Inv cache results' bps unused keys (ri :: act).
  Proof.
    intros [H1 H2 H3 H4 H5 H6 H7 H8] Hx Hxi Hkx Hlay.
    destruct (set_nth_lt results ri (Result 0 (Definite None)) (nth_lt _ _ _ Hx)) as [results' E].
    exists results'. split; [assumption|].
    assert (Hcase : forall k y, nth_error results' k = Some y ->
      (k = ri /\ y = Result 0 (Definite None)) \/ (k <> ri /\ nth_error results k = Some y)).
    { intros k y Hy. rewrite (nth_error_set_nth _ _ _ _ k E) in Hy. destruct (Nat.eqb_spec k ri); [left; split; congruence|auto]. }
    assert (Hnil : forall l F, chain bps None l F -> l = [] /\ F = []) by (intros l F Hc; inversion Hc; auto).
    constructor; try assumption.
    - rewrite (set_nth_length _ _ _ _ E). assumption.
    - intros k y Hy. destruct (Hcase _ _ Hy) as [[-> ->]|[_ Hy']]; [cbn; lia|eauto].
    - intros k y g' w' i Hy Hky Hdy. destruct (Hcase _ _ Hy) as [[-> ->]|[Hne Hy']]; [|eauto].
      cbn [res_kind] in Hdy. injection Hdy as <-. rewrite Hkx in Hky. injection Hky as <- <-. exists [], []. split; [constructor|]. cbn [res_badness]. split; [assumption|lia].
    - intros k y g' w' Hy Hky Hn. destruct (Hcase _ _ Hy) as [[-> ->]|[_ Hy']]; [exfalso; apply Hn; left; reflexivity|eauto].
    - intros k y h k' y' i l F0 Hin Hy Hdy Hne Hy' Hdy' Hc'.
      destruct (Hcase _ _ Hy) as [[-> ->]|[Hn1 Hy1]]; [discriminate|]. destruct (Hcase _ _ Hy') as [[-> ->]|[Hn2 Hy2]]; [|eauto].
      cbn [res_kind] in Hdy'. injection Hdy' as <-. apply Hnil in Hc' as [_ ->]. auto.
    - destruct H8 as (lf & Ff & Hc & Hd). exists lf, Ff. split; [assumption|]. intros k y i l F Hy Hdy Hc'.
      destruct (Hcase _ _ Hy) as [[-> ->]|[_ Hy']]; [|eauto].
      cbn [res_kind] in Hdy. injection Hdy as <-. apply Hnil in Hc' as [_ ->]. intros k [].
  Qed.
End Mem.
