(* KnuthWrapper: the search *)
From Coq Require Import ZArith Bool List Lia ZifyBool.
From Verif Require Import ArrLib WordWrapModel WordWrapSpec WordWrapProofs WordWrapProofs2.
Import ListNotations.
Open Scope Z_scope.

Section Search.
  Variable BW : Z.
  Hypothesis HBW : 1 <= BW.
  Variable words : list word.
  Notation N := (length words).
  Notation max := (badness_max BW).
  (* adjusted sizes *)
  Variable adj : nat -> Z.
  Hypothesis Hadj : forall i, 0 <= adj i.
  Hypothesis Hwords : forall i w, nth_error words i = Some w -> 0 <= space_size w.

  (* geometry *)
  Variable NG : nat.
  Variables (L : nat -> Z) (nx : nat -> nat).
  Variable gk : nat -> nat.
  Hypothesis Hgk : forall k, gk (S k) = nx (gk k).
  Hypothesis HNG : forall k, (1 <= k < N)%nat -> (gk k < NG)%nat.

  Definition sp' (i : nat) : Z := if Nat.eqb i 0 then 0 else space_of words i.
  Notation len := (tsize sp' adj).

  Lemma sp'_nonneg i : 0 <= sp' i.
  Proof.
    unfold sp', space_of. destruct (Nat.eqb i 0); [lia|]. destruct (nth_error words i) eqn:E; [eauto|lia].
  Qed.

  Definition fitA (l : Z) (i j : nat) : Prop := j = S i \/ len i j <= l.
  Definition cost (l : Z) (i j : nat) : Z := if len i j <=? l then (l - len i j) * (l - len i j) else 0.

  Inductive lay : nat -> nat -> list nat -> Z -> Prop :=
  | lay_last g i : (i < N)%nat -> fitA (L g) i N -> lay g i [] 0
  | lay_break g i j l c : (i < j < N)%nat -> fitA (L g) i j -> lay (nx g) j l c -> lay g i (j :: l) (cost (L g) i j + c).

  Lemma max_pos : 1 <= max.
  Proof. unfold badness_max. assert (2 ^ 1 <= 2 ^ BW) by (apply Z.pow_le_mono_r; lia). lia. Qed.

  Lemma cost_nonneg l i j : 0 <= cost l i j.
  Proof. unfold cost. destruct (_ <=? _); [apply Z.square_nonneg|lia]. Qed.

  Lemma lay_nonneg g w l c : lay g w l c -> 0 <= c.
  Proof. induction 1; [lia|]. pose proof (cost_nonneg (L g) i j). lia. Qed.

  Lemma len_mono i j k : (i < j <= k)%nat -> len i j <= len i k.
  Proof. apply tsize_mono; [exact sp'_nonneg|exact Hadj]. Qed.

  Lemma len_step i j w : (i < j)%nat -> nth_error words j = Some w -> len i (S j) = len i j + space_size w + adj j.
  Proof.
    intros H E. rewrite tsize_step by assumption. unfold sp' at 2, space_of. rewrite E. destruct (Nat.eqb_spec j 0); [lia|reflexivity].
  Qed.

  Lemma len_one i : len i (S i) = adj i.
  Proof. rewrite tsize_one. unfold sp'. cbn. destruct (Nat.eqb i 0); lia. Qed.

  Lemma fitA_down l i j k : (i < j <= k)%nat -> fitA l i k -> fitA l i j.
  Proof.
    intros H [->|Hk]; [left; lia|]. right. pose proof (len_mono i j k H). lia.
  Qed.

  (* fewer words, greater gap *)
  Lemma cost_mono l i j k : (i < j <= k)%nat -> fitA l i k -> cost l i k <= cost l i j.
  Proof.
    intros H Hk. pose proof (len_mono i j k H) as Hm. unfold cost.
    destruct (Z.leb_spec (len i k) l).
    - destruct (Z.leb_spec (len i j) l); [|lia]. apply Z.square_le_mono_nonneg; lia.
    - destruct (_ <=? _); [apply Z.square_nonneg|lia].
  Qed.

  Lemma line_badness_ok l i j :
    match line_badness BW l (len i j) with
    | Some b => b = cost l i j /\ 0 <= b <= max
    | None => max < cost l i j
    end.
  Proof.
    unfold line_badness, cost. pose proof max_pos.
    destruct (Z.ltb_spec (len i j) l).
    - destruct (Z.leb_spec (len i j) l); [|lia].
      destruct (Z.leb_spec (l - len i j) max); cbn [andb].
      + destruct (Z.leb_spec ((l - len i j) * (l - len i j)) max); [|lia].
        split; [reflexivity|]. pose proof (Z.square_nonneg (l - len i j)). lia.
      + nia.
    - destruct (Z.leb_spec (len i j) l); [|lia]. replace (l - len i j) with 0 by lia. lia.
  Qed.

  Inductive reach : state -> state -> Prop :=
  | reach_refl s : reach s s
  | reach_step s s1 s2 : step BW words s = Some s1 -> reach s1 s2 -> reach s s2.

  Lemma reach_trans s1 s2 s3 : reach s1 s2 -> reach s2 s3 -> reach s1 s3.
  Proof. induction 1; [auto|]. intros H3. econstructor; eauto. Qed.

  Lemma reach_run s s' : reach s s' -> label_ s' = Done -> exists fuel, forall f, (fuel <= f)%nat -> run BW words f s = Some s'.
  Proof.
    induction 1 as [s|s s1 s2 Hs Hr IH]; intros HD.
    - exists 0%nat. intros f _. destruct f; cbn; rewrite HD; reflexivity.
    - destruct (IH HD) as [fuel Hf]. exists (S fuel). intros f Hle. destruct f as [|f]; [lia|]. cbn [run].
      rewrite Hs. cbn [obind]. destruct (label_ s) eqn:El; try (apply Hf; lia).
      unfold step in Hs. rewrite El in Hs. injection Hs as <-. rewrite <- (Hf fuel (Nat.le_refl _)).
      destruct fuel; cbn [run]; now rewrite El.
  Qed.

  Notation Inv := (Inv N NG max lay).

  Definition lines_ok (lss : list line_slot) : Prop :=
    length lss = N /\ forall k s, nth_error lss k = Some s -> ls_geom_index s = gk k /\ ls_size s = L (gk k).
  Definition words_ok (wss : list word_slot) : Prop :=
    length wss = N /\ forall k s, nth_error wss k = Some s -> ws_word_size s = adj k.

  (* what is known of the bound K' and the result x when the search of a line is done, where K
     is the bound at the beginning *)
  Definition exitK (K K' : Z) (x : result) : Prop :=
    0 <= K' <= K /\
    (K' = K \/ (K' = res_badness x - 1 /\ (res_kind x <> Indefinite \/ res_badness x = max)) \/
     (res_badness x = 0 /\ res_kind x <> Indefinite)) /\
    (res_kind x = Indefinite -> K' < res_badness x \/ res_badness x = max).

  (* during the search *)
  Definition midK (K0 K : Z) (x : result) : Prop :=
    0 <= K <= K0 /\
    (K = K0 \/ (K = res_badness x - 1 /\ (res_kind x <> Indefinite \/ res_badness x = max))) /\
    (K < res_badness x \/ res_badness x = max).

  Lemma midK_exitK K0 K x : midK K0 K x -> exitK K0 K x.
  Proof. unfold midK, exitK. tauto. Qed.

  (* the result of a line break is merged into that of the line *)
  Lemma merge wi li ri rc lsz cur Kc wss lss cache results bps unused keys act g w j K0 K b x xc line line2 :
    Inv cache results bps unused keys (ri :: act) -> ~ In ri act ->
    nth_error results ri = Some x -> nth_error keys ri = Some (g, w) ->
    nth_error results rc = Some xc -> nth_error keys rc = Some (nx g, j) -> rc <> ri -> ~ In rc act ->
    (w < j < N)%nat -> fitA (L g) w j -> b = cost (L g) w j -> 0 <= b <= K -> K0 <= max ->
    midK K0 K x -> exitK (K - b) Kc xc -> good lay (nx g) j xc ->
    nth_error lss (S li) = Some line2 -> ls_word_index line2 = j ->
    nth_error lss li = Some line -> ls_size line = L g -> ls_badness line = b -> ls_result_index line = ri ->
    exists lab K' x' results' bps' unused',
      reach (State MoveUp wi (S li) rc lsz cur Kc wss lss cache results bps unused)
            (State lab j li ri (L g) cur K' wss lss cache results' bps' unused') /\
      Inv cache results' bps' unused' keys (ri :: act) /\ nth_error results' ri = Some x' /\
      (forall r, r <> ri -> nth_error results' r = nth_error results r) /\
      res_badness x' <= res_badness x /\ (forall l c, lay (nx g) j l c -> res_badness x' <= b + c) /\
      ((lab = MoveLeft /\ midK K0 K' x') \/ (lab = MoveUp /\ res_badness x' = 0 /\ exitK K0 K' x')).
  Proof.
    intros HI Hact Hx Hkx Hxc Hkc Hne Hca Hj Hfit Hb HbK HK0 HM HX [Hlow Hind] Hl2 Hl2w Hl1 Hl1s Hl1b Hl1r.
    pose proof max_pos as Hmax.
    pose proof (v_bad _ _ _ _ _ _ _ _ _ _ HI _ _ Hx) as Hxr. pose proof (v_bad _ _ _ _ _ _ _ _ _ _ HI _ _ Hxc) as Hcr.
    assert (Hstep : step BW words (State MoveUp wi (S li) rc lsz cur Kc wss lss cache results bps unused) =
      move_up BW (State MoveUp wi (S li) rc lsz cur Kc wss lss cache results bps unused)) by reflexivity.
    unfold move_up in Hstep. rewrite Hl2 in Hstep. cbn [obind] in Hstep. rewrite Hl1 in Hstep. cbn [obind] in Hstep.
    rewrite Hxc in Hstep. cbn [obind] in Hstep. rewrite Hl1r, Hx in Hstep. cbn [obind] in Hstep. rewrite Hl2w, Hl1s, Hl1b in Hstep.
    destruct ((b + res_badness xc <=? max) && (b + res_badness xc <? res_badness x)) eqn:Ead.
    - assert (Ha1 : b + res_badness xc <= max) by lia. assert (Ha2 : b + res_badness xc < res_badness x) by lia. clear Ead.
      destruct (inv_indef N NG max lay _ _ _ _ _ _ _ x (b + res_badness xc) HI Hx ltac:(lia)) as (bps1 & unused1 & results1 & Er & Es & HI1).
      rewrite Er in Hstep. cbn [obind] in Hstep.
      destruct (res_kind xc) as [|next] eqn:Ekc.
      + rewrite Es in Hstep. cbn [obind] in Hstep.
        assert (Hgt : b + res_badness xc > Kc + b).
        { destruct HX as (HX1 & HX2 & HX3). rewrite Ekc in HX3. destruct (HX3 eq_refl); [lia|]. lia. }
        destruct (Z.gtb_spec (b + res_badness xc) (Kc + b)); [|lia].
        exists MoveLeft, (Kc + b), (Result (b + res_badness xc) Indefinite), results1, bps1, unused1.
        split; [econstructor; [exact Hstep|constructor]|]. split; [exact HI1|]. split; [apply (nth_set_same _ _ _ _ Es)|].
        split; [intros r Hr; apply (nth_set_other _ _ _ _ _ Es Hr)|]. cbn [res_badness res_kind].
        split; [lia|]. split; [intros l c Hl; apply Hlow in Hl; lia|]. left. split; [reflexivity|].
        unfold midK, exitK in *. cbn [res_badness res_kind]. rewrite Ekc in HX.
        destruct HX as (HX1 & HX2 & HX3). destruct HM as (HM1 & HM2 & HM3).
        assert (Kc = K - b).
        { destruct HX2 as [|[[? [|]]|[? ?]]]; [assumption|congruence|lia|congruence]. }
        split; [lia|]. split; [|left; lia]. destruct HM2 as [HM2|[HM2 _]]; [left; lia|lia].
      + destruct (v_chain _ _ _ _ _ _ _ _ _ _ HI1 rc xc (nx g) j next) as (lc & Fc & Hcc & Hlc & _).
        { rewrite (nth_set_other _ _ _ _ _ Es Hne). assumption. }
        { assumption. }
        { assumption. }
        destruct (inv_def N NG max lay _ _ _ _ _ _ _ (Result (b + res_badness xc) Indefinite) (b + res_badness xc) xc j next g w (nx g) lc Fc HI1 Hact) as (index & bps2 & unused2 & results2 & Ea & Es2 & HI2).
        { apply (nth_set_same _ _ _ _ Es). }
        { reflexivity. }
        { assumption. }
        { lia. }
        { exists rc. split; [assumption|]. split; [assumption|]. split; [|assumption]. rewrite (nth_set_other _ _ _ _ _ Es Hne). assumption. }
        { assumption. }
        { assumption. }
        { rewrite Hb. constructor; assumption. }
        rewrite Ea in Hstep. cbn [obind] in Hstep.
        destruct (set_nth_lt results ri (Result (b + res_badness xc) (Definite (Some index))) (nth_lt _ _ _ Hx)) as [results3 Es3].
        rewrite (set_set _ _ _ _ _ _ _ Es Es2 Es3) in *. clear Es2 results2. rewrite Es3 in Hstep. cbn [obind] in Hstep.
        set (x' := Result (b + res_badness xc) (Definite (Some index))) in *.
        assert (Hcommon : forall lab K', reach (State MoveUp wi (S li) rc lsz cur Kc wss lss cache results bps unused)
            (State lab j li ri (L g) cur K' wss lss cache results3 bps2 unused2) ->
          ((lab = MoveLeft /\ midK K0 K' x') \/ (lab = MoveUp /\ res_badness x' = 0 /\ exitK K0 K' x')) ->
          exists lab K' x' results' bps' unused',
          reach (State MoveUp wi (S li) rc lsz cur Kc wss lss cache results bps unused)
                (State lab j li ri (L g) cur K' wss lss cache results' bps' unused') /\
          Inv cache results' bps' unused' keys (ri :: act) /\ nth_error results' ri = Some x' /\
          (forall r, r <> ri -> nth_error results' r = nth_error results r) /\
          res_badness x' <= res_badness x /\ (forall l c, lay (nx g) j l c -> res_badness x' <= b + c) /\
          ((lab = MoveLeft /\ midK K0 K' x') \/ (lab = MoveUp /\ res_badness x' = 0 /\ exitK K0 K' x'))).
        { intros lab K' Hr HH. exists lab, K', x', results3, bps2, unused2. split; [exact Hr|]. split; [exact HI2|].
          split; [apply (nth_set_same _ _ _ _ Es3)|]. split; [intros r Hr2; apply (nth_set_other _ _ _ _ _ Es3 Hr2)|].
          unfold x' at 1 2. cbn [res_badness]. split; [lia|]. split; [intros l c Hl; apply Hlow in Hl; lia|]. exact HH. }
        assert (Hd' : res_kind x' <> Indefinite) by (cbn; discriminate).
        assert (Hb' : res_badness x' = b + res_badness xc) by reflexivity.
        destruct HX as (HX1 & HX2 & HX3). destruct HM as (HM1 & HM2 & HM3).
        destruct (Z.leb_spec (b + res_badness xc) (Kc + b)).
        * destruct (Z.eqb_spec (b + res_badness xc) 0).
          -- apply (Hcommon MoveUp (Kc + b)); [econstructor; [exact Hstep|constructor]|]. right. split; [reflexivity|].
             split; [lia|]. unfold exitK. split; [lia|]. split; [right; right; split; [lia|assumption]|]. intros; contradiction.
          -- apply (Hcommon MoveLeft (b + res_badness xc - 1)); [econstructor; [exact Hstep|constructor]|]. left. split; [reflexivity|].
             unfold midK. split; [lia|]. split; [right; split; [lia|left; assumption]|left; lia].
        * apply (Hcommon MoveLeft (Kc + b)); [econstructor; [exact Hstep|constructor]|]. left. split; [reflexivity|].
          unfold midK. split; [lia|]. split; [|left; lia].
          destruct HX2 as [HX2|[[HX2 _]|[HX2 _]]].
          -- destruct HM2 as [HM2|[HM2 _]]; [left; lia|]. lia.
          -- right. split; [lia|left; assumption].
          -- lia.
    - exists MoveLeft, (Kc + b), x, results, bps, unused.
      split; [econstructor; [exact Hstep|constructor]|]. split; [exact HI|]. split; [exact Hx|]. split; [reflexivity|].
      split; [lia|].
      assert (Hge : res_badness x <= b + res_badness xc) by lia.
      split; [intros l c Hl; apply Hlow in Hl; lia|]. left. split; [reflexivity|].
      unfold midK, exitK in *. destruct HX as (HX1 & HX2 & HX3). destruct HM as (HM1 & HM2 & HM3).
      split; [lia|].
      destruct HX2 as [HX2|[[HX2 HX4]|[HX2 HX4]]].
      + replace (Kc + b) with K by lia. auto.
      + destruct (Z.eq_dec Kc (K - b)); [replace (Kc + b) with K by lia; auto|].
        assert (Hcase : res_badness x = max /\ Kc + b = max - 1) by lia.
        split; [right; split; [lia|right; lia]|right; lia].
      + assert (res_badness x = max /\ b = max /\ K = max) by lia. assert (Kc = 0) by lia.
        replace (Kc + b) with K by lia. auto.
  Qed.

  (* the search of a line with first word w, from state s on, ends *)
  Definition finishes (s : state) (w li ri : nat) (K : Z) (act : list nat) (keys : list (nat * nat))
    (wss : list word_slot) (lss : list line_slot) (results : list result) : Prop :=
    exists wi' lsz' cur' K' wss' lss' cache' results' bps' unused' ext x,
    reach s (State MoveUp wi' li ri lsz' cur' K' wss' lss' cache' results' bps' unused') /\
    Inv cache' results' bps' unused' (keys ++ ext) act /\
    nth_error results' ri = Some x /\ exitK K K' x /\
    (forall r, In r act -> nth_error results' r = nth_error results r) /\
    lines_ok lss' /\ (forall k, (k < li)%nat -> nth_error lss' k = nth_error lss k) /\
    (exists line, nth_error lss' li = Some line /\ ls_word_index line = w) /\
    words_ok wss' /\ (forall k, (k < w)%nat -> nth_error wss' k = nth_error wss k).

  Lemma finish_now wi w li ri lsz cur K0 K act keys wss lss cache results bps unused x g :
    Inv cache results bps unused keys (ri :: act) -> nth_error results ri = Some x -> nth_error keys ri = Some (g, w) ->
    exitK K0 K x -> below lay g w (res_badness x) -> lines_ok lss -> words_ok wss ->
    (exists line, nth_error lss li = Some line /\ ls_word_index line = w) ->
    finishes (State MoveUp wi li ri lsz cur K wss lss cache results bps unused) w li ri K0 act keys wss lss results.
  Proof.
    intros HI Hx Hk HX Hb Hl Hw Hline. pose proof max_pos.
    exists wi, lsz, cur, K, wss, lss, cache, results, bps, unused, [], x.
    split; [constructor|]. rewrite app_nil_r. split.
    { apply (inv_finish _ _ _ _ _ _ _ _ _ _ _ x g w HI Hx Hk). split; [assumption|]. intros Hi.
      destruct HX as (HX1 & HX2 & HX3). destruct (HX3 Hi); lia. }
    split; [assumption|]. split; [assumption|]. split; [reflexivity|]. split; [assumption|]. split; [reflexivity|].
    split; [assumption|]. split; [assumption|]. reflexivity.
  Qed.

  Lemma finish_reach s s' w li ri K act keys ext wss lss results wss' lss' results' : reach s s' ->
    finishes s' w li ri K act (keys ++ ext) wss' lss' results' ->
    (forall r, In r act -> nth_error results' r = nth_error results r) ->
    (forall k, (k < li)%nat -> nth_error lss' k = nth_error lss k) ->
    (forall k, (k < w)%nat -> nth_error wss' k = nth_error wss k) ->
    finishes s w li ri K act keys wss lss results.
  Proof.
    intros Hr (wi2 & lsz2 & cur2 & K2 & wss2 & lss2 & cache2 & results2 & bps2 & unused2 & ext2 & x & R & I & X & E & F1 & L1 & L2 & L3 & W1 & W2) H1 H2 H3.
    exists wi2, lsz2, cur2, K2, wss2, lss2, cache2, results2, bps2, unused2, (ext ++ ext2), x.
    split; [eapply reach_trans; eauto|]. split; [now rewrite app_assoc|]. split; [assumption|]. split; [assumption|].
    split; [intros r Hi; rewrite F1 by assumption; auto|]. split; [assumption|].
    split; [intros k Hk; rewrite L2 by assumption; auto|]. split; [assumption|]. split; [assumption|].
    intros k Hk. rewrite W2 by assumption. auto.
  Qed.

  Definition explores (w : nat) : Prop := forall li ri K act keys wss lss cache results bps unused lsz cur,
    (li <= w < N)%nat -> lines_ok lss -> (exists line, nth_error lss li = Some line /\ ls_word_index line = w) -> words_ok wss ->
    nth_error results ri = Some (Result max Indefinite) -> nth_error keys ri = Some (gk li, w) ->
    Inv cache results bps unused keys (ri :: act) -> ~ In ri act ->
    (forall r, In r act -> exists g' w', nth_error keys r = Some (g', w') /\ (w' <= w)%nat) -> 0 <= K <= max ->
    finishes (State MoveRight1 w li ri lsz cur K wss lss cache results bps unused) w li ri K act keys wss lss results.

  Lemma options w (IH : forall j, (w < j)%nat -> explores j) : forall j li ri K0 K act keys wss lss cache results bps unused x,
    (li <= w)%nat -> (w < j < N)%nat -> lines_ok lss -> (exists line, nth_error lss li = Some line /\ ls_word_index line = w) -> words_ok wss ->
    nth_error results ri = Some x -> nth_error keys ri = Some (gk li, w) ->
    Inv cache results bps unused keys (ri :: act) -> ~ In ri act ->
    (forall r, In r act -> exists g' w', nth_error keys r = Some (g', w') /\ (w' <= w)%nat) ->
    fitA (L (gk li)) w j -> ~ fitA (L (gk li)) w N ->
    (forall k s, (w < k < j)%nat -> nth_error wss k = Some s -> ws_cursor_pos s = len w k) ->
    midK K0 K x -> K0 <= max ->
    (forall j' l c, (j < j' < N)%nat -> fitA (L (gk li)) w j' -> lay (nx (gk li)) j' l c -> res_badness x <= cost (L (gk li)) w j' + c) ->
    finishes (State MoveDown j li ri (L (gk li)) (len w j) K wss lss cache results bps unused) w li ri K0 act keys wss lss results.
  Proof.
    induction j as [|j0 IHj]; intros li ri K0 K act keys wss lss cache results bps unused x Hli Hj Hlines Hline Hwss Hx Hkx HI Hact Hak Hfit Hnof Hcur HM HK0 Hproc; [lia|].
    set (j := S j0) in *. set (g := gk li) in *. pose proof max_pos as Hmax.
    pose proof (v_bad _ _ _ _ _ _ _ _ _ _ HI _ _ Hx) as Hxr.
    (* a lower bound on all options *)
    assert (Hbelow : forall y : Z, y <= res_badness x -> y <= cost (L g) w j -> below lay g w y).
    { intros y Hy1 Hy2 l c Hl. inversion Hl as [? ? Hn Hf|? ? j' l' c' Hj' Hf Hl']; subst; [contradiction|].
      pose proof (lay_nonneg _ _ _ _ Hl').
      destruct (Nat.lt_ge_cases j j') as [Hlt|Hge].
      - specialize (Hproc j' l' c' ltac:(lia) Hf Hl'). lia.
      - pose proof (cost_mono (L g) w j' j ltac:(lia) Hfit). lia. }
    pose proof (line_badness_ok (L g) w j) as HLB.
    assert (Hstep : step BW words (State MoveDown j li ri (L g) (len w j) K wss lss cache results bps unused) =
      move_down BW words (State MoveDown j li ri (L g) (len w j) K wss lss cache results bps unused)) by reflexivity.
    unfold move_down in Hstep.
    destruct (line_badness BW (L g) (len w j)) as [b|].
    2:{ eapply (finish_reach _ _ _ _ _ _ _ _ []); [econstructor; [exact Hstep|constructor]| |reflexivity|reflexivity|reflexivity].
        rewrite app_nil_r. apply (finish_now _ _ _ _ _ _ _ _ _ _ _ _ _ _ _ _ x g); auto.
        - now apply midK_exitK.
        - apply Hbelow; lia. }
    destruct HLB as [Eb Hb].
    destruct (Z.gtb_spec b K) as [HbK|HbK].
    { rewrite Hx in Hstep. cbn [obind] in Hstep. destruct (Z.ltb_spec b (res_badness x)).
      - destruct (inv_indef N NG max lay _ _ _ _ _ _ _ x b HI Hx ltac:(lia)) as (bps1 & unused1 & results1 & Er & Es & HI1).
        rewrite Er in Hstep. cbn [obind] in Hstep. rewrite Es in Hstep. cbn [obind] in Hstep.
        eapply (finish_reach _ _ _ _ _ _ _ _ [] _ _ _ _ _ results1); [econstructor; [exact Hstep|constructor]| | |reflexivity|reflexivity].
        + rewrite app_nil_r. apply (finish_now _ _ _ _ _ _ _ _ _ _ _ _ _ _ _ _ (Result b Indefinite) g); auto.
          * apply (nth_set_same _ _ _ _ Es).
          * unfold exitK. cbn [res_badness res_kind]. unfold midK in HM. destruct HM as (HM1 & HM2 & HM3).
            split; [lia|]. split; [left; destruct HM2 as [|[? _]]; lia|]. intros _. left. lia.
          * cbn [res_badness]. apply Hbelow; lia.
        + intros r Hr. apply (nth_set_other _ _ _ _ _ Es). intros ->. contradiction.
      - eapply (finish_reach _ _ _ _ _ _ _ _ []); [econstructor; [exact Hstep|constructor]| |reflexivity|reflexivity|reflexivity].
        rewrite app_nil_r. apply (finish_now _ _ _ _ _ _ _ _ _ _ _ _ _ _ _ _ x g); auto.
        + now apply midK_exitK.
        + apply Hbelow; lia. }
    destruct Hline as (line & Eline & Hlw). destruct Hlines as [Hll Hlg].
    rewrite Eline in Hstep. cbn [obind] in Hstep.
    set (line1 := LineSlot (ls_size line) (ls_geom_index line) (ls_word_index line) b ri) in *.
    destruct (set_nth_lt lss li line1 (nth_lt _ _ _ Eline)) as [lss1 E1]. rewrite E1 in Hstep. cbn [obind] in Hstep.
    destruct (nth_some lss1 (S li)) as [line2 Eline2]; [rewrite (set_nth_length _ _ _ _ E1); lia|].
    rewrite Eline2 in Hstep. cbn [obind] in Hstep.
    assert (Eline2' : nth_error lss (S li) = Some line2) by (rewrite <- (nth_set_other _ _ _ _ (S li) E1); [assumption|lia]).
    set (line3 := LineSlot (ls_size line2) (ls_geom_index line2) j (ls_badness line2) (ls_result_index line2)) in *.
    destruct (set_nth_lt lss1 (S li) line3 (nth_lt _ _ _ Eline2)) as [lss2 E2]. rewrite E2 in Hstep. cbn [obind] in Hstep.
    destruct (Hlg _ _ Eline2') as [Hg2 Hs2]. rewrite Hg2, Hgk in Hstep. fold g in Hstep.
    assert (Hlss2 : lines_ok lss2).
    { split; [rewrite (set_nth_length _ _ _ _ E2), (set_nth_length _ _ _ _ E1); assumption|].
      intros k s0 Hk. rewrite (nth_error_set_nth _ _ _ _ k E2) in Hk. destruct (Nat.eqb_spec k (S li)) as [->|].
      - injection Hk as <-. cbn. auto.
      - rewrite (nth_error_set_nth _ _ _ _ k E1) in Hk. destruct (Nat.eqb_spec k li) as [->|]; [|auto].
        injection Hk as <-. cbn. auto. }
    assert (Hl2li : nth_error lss2 li = Some line1).
    { rewrite (nth_set_other _ _ _ _ li E2) by lia. apply (nth_set_same _ _ _ _ E1). }
    assert (Hl2s : nth_error lss2 (S li) = Some line3) by (apply (nth_set_same _ _ _ _ E2)).
    assert (Hl2k : forall k, (k < li)%nat -> nth_error lss2 k = nth_error lss k).
    { intros k Hk. rewrite (nth_set_other _ _ _ _ k E2) by lia. rewrite (nth_set_other _ _ _ _ k E1) by lia. reflexivity. }
    assert (HNGc : (nx g < NG)%nat) by (unfold g; rewrite <- Hgk; apply HNG; lia).
    assert (HMb : 0 <= K <= K0) by (unfold midK in HM; tauto).
    (* after the search of the next line *)
    assert (Hafter : forall rc wi' lsz' cur' Kc wss' lss' cache' results' bps' unused' ext xc,
      Inv cache' results' bps' unused' (keys ++ ext) (ri :: act) -> nth_error results' ri = Some x ->
      (forall r, In r act -> nth_error results' r = nth_error results r) ->
      nth_error results' rc = Some xc -> nth_error (keys ++ ext) rc = Some (nx g, j) -> exitK (K - b) Kc xc ->
      lines_ok lss' -> nth_error lss' li = Some line1 -> (forall k, (k < li)%nat -> nth_error lss' k = nth_error lss k) ->
      (exists l2, nth_error lss' (S li) = Some l2 /\ ls_word_index l2 = j) ->
      words_ok wss' -> (forall k, (k < j)%nat -> nth_error wss' k = nth_error wss k) ->
      finishes (State MoveUp wi' (S li) rc lsz' cur' Kc wss' lss' cache' results' bps' unused') w li ri K0 act (keys ++ ext) wss' lss' results').
    { intros rc wi' lsz' cur' Kc wss' lss' cache' results' bps' unused' ext xc HI' Hx' Hres' Hxc Hkc HXc Hlines' Hli' Hlk' (l2 & El2 & Hl2w) Hwss' Hwk'.
      assert (Hkx' : nth_error (keys ++ ext) ri = Some (g, w)) by (rewrite nth_error_app1; [assumption|eapply nth_lt; eauto]).
      assert (Hrc1 : rc <> ri) by (intros ->; rewrite Hkx' in Hkc; injection Hkc as _ E; unfold j in *; lia).
      assert (Hak' : forall r, In r act -> exists g' w', nth_error (keys ++ ext) r = Some (g', w') /\ (w' <= w)%nat).
      { intros r Hr. destruct (Hak r Hr) as (g' & w' & Hk' & Hw'). exists g', w'. split; [|assumption].
        rewrite nth_error_app1; [assumption|eapply nth_lt; eauto]. }
      assert (Hrc2 : ~ In rc act).
      { intros Hi. destruct (Hak' _ Hi) as (g' & w' & Hk' & Hw'). rewrite Hk' in Hkc. injection Hkc as -> ->. unfold j in *; lia. }
      assert (Hgood : good lay (nx g) j xc).
      { apply (v_good _ _ _ _ _ _ _ _ _ _ HI' rc); auto. intros [|]; [congruence|contradiction]. }
      destruct (merge wi' li ri rc lsz' cur' Kc wss' lss' cache' results' bps' unused' (keys ++ ext) act g w j K0 K b x xc line1 l2
        HI' Hact Hx' Hkx' Hxc Hkc Hrc1 Hrc2 Hj Hfit Eb ltac:(lia) HK0 HM HXc Hgood El2 Hl2w Hli' (proj2 (Hlg _ _ Eline)) eq_refl eq_refl)
        as (lab & K' & x' & results3 & bps3 & unused3 & Hr & HI3 & Hx3 & Hres3 & Hle & Hlow & Hlab).
      assert (Hres4 : forall r, In r act -> nth_error results3 r = nth_error results' r).
      { intros r Hra. apply Hres3. intros ->. contradiction. }
      destruct Hlab as [[-> HM3]|(-> & Hx0 & HX3)].
      - assert (Hstep3 : step BW words (State MoveLeft j li ri (L g) cur' K' wss' lss' cache' results3 bps3 unused3) =
          move_left (State MoveLeft j li ri (L g) cur' K' wss' lss' cache' results3 bps3 unused3)) by reflexivity.
        unfold move_left in Hstep3. unfold j in Hstep3 at 2. rewrite Hli' in Hstep3. cbn [obind] in Hstep3.
        assert (Hlw1 : ls_word_index line1 = w) by exact Hlw. rewrite Hlw1 in Hstep3.
        destruct (Nat.ltb_spec w j0).
        + destruct (nth_some wss' j0) as [slot Eslot]; [destruct Hwss' as [-> _]; lia|]. rewrite Eslot in Hstep3. cbn [obind] in Hstep3.
          assert (Hcs : ws_cursor_pos slot = len w j0).
          { apply (Hcur j0); [lia|]. rewrite <- Hwk' by lia. assumption. }
          rewrite Hcs in Hstep3.
          eapply (finish_reach _ _ _ _ _ _ _ _ [] _ _ _ _ _ results3).
          * eapply reach_trans; [exact Hr|]. econstructor; [exact Hstep3|constructor].
          * rewrite app_nil_r. eapply (IHj li ri K0 K' act (keys ++ ext) wss' lss' cache' results3 bps3 unused3 x'); auto; try lia.
            -- exists line1. split; assumption.
            -- apply (fitA_down _ _ _ j); [lia|assumption].
            -- intros k s0 Hk Hs0. apply (Hcur k); [lia|]. rewrite <- Hwk' by lia. assumption.
            -- intros j' l c Hj' Hf' Hl'. destruct (Nat.eq_dec j' j) as [->|Hne'].
               ++ specialize (Hlow _ _ Hl'). rewrite Eb in Hlow. exact Hlow.
               ++ apply (Z.le_trans _ _ _ Hle). exact (Hproc j' l c ltac:(lia) Hf' Hl').
          * assumption.
          * reflexivity.
          * reflexivity.
        + eapply (finish_reach _ _ _ _ _ _ _ _ [] _ _ _ _ _ results3).
          * eapply reach_trans; [exact Hr|]. econstructor; [exact Hstep3|constructor].
          * rewrite app_nil_r. apply (finish_now _ _ _ _ _ _ _ _ _ _ _ _ _ _ _ _ x' g); auto.
            -- now apply midK_exitK.
            -- intros l c Hl. inversion Hl as [? ? Hn Hf|? ? j' l' c' Hj' Hf Hl']; subst; [contradiction|].
               destruct (Nat.eq_dec j' j) as [->|Hne'].
               ++ specialize (Hlow _ _ Hl'). exact Hlow.
               ++ apply (Z.le_trans _ _ _ Hle). exact (Hproc j' l' c' ltac:(lia) Hf Hl').
            -- exists line1. split; assumption.
          * assumption.
          * reflexivity.
          * reflexivity.
      - eapply (finish_reach _ _ _ _ _ _ _ _ [] _ _ _ _ _ results3); [exact Hr| |assumption|reflexivity|reflexivity].
        rewrite app_nil_r. apply (finish_now _ _ _ _ _ _ _ _ _ _ _ _ _ _ _ _ x' g); auto.
        + intros l c Hl. apply lay_nonneg in Hl. lia.
        + exists line1. split; assumption. }
    (* the search of the next line *)
    assert (Hsearch : forall rc ext cache' results',
      rc <> ri -> ~ In rc act ->
      Inv cache' results' bps unused (keys ++ ext) (rc :: ri :: act) -> nth_error results' rc = Some (Result max Indefinite) ->
      nth_error (keys ++ ext) rc = Some (nx g, j) ->
      (forall r, r <> rc -> (r < length results)%nat -> nth_error results' r = nth_error results r) ->
      finishes (State MoveRight1 j (S li) rc (L g) (len w j) (K - b) wss lss2 cache' results' bps unused) w li ri K0 act keys wss lss results).
    { intros rc ext cache' results' Hrc1 Hrc2 HI' Hrc Hkrc Hsame.
      assert (Hkeylen : length keys = length results) by (exact (v_len _ _ _ _ _ _ _ _ _ _ HI)).
      assert (Hlen : (ri < length results)%nat) by (eapply nth_lt; eauto).
      assert (Hx2 : nth_error results' ri = Some x) by (rewrite Hsame; auto).
      assert (Hsame2 : forall r, In r act -> nth_error results' r = nth_error results r).
      { intros r Hr. apply Hsame; [intros ->; contradiction|]. destruct (Hak r Hr) as (g' & w' & Hk' & _).
        apply nth_lt in Hk'. lia. }
      destruct (IH j ltac:(lia) (S li) rc (K - b) (ri :: act) (keys ++ ext) wss lss2 cache' results' bps unused (L g) (len w j))
        as (wi2 & lsz2 & cur2 & K2 & wss2 & lss3 & cache2 & results2 & bps2 & unused2 & ext2 & xc & R & I & X & E & F1 & L1 & L2 & L3 & W1 & W2).
      { lia. }
      { assumption. }
      { exists line3. split; [assumption|reflexivity]. }
      { assumption. }
      { assumption. }
      { rewrite Hgk. assumption. }
      { assumption. }
      { intros [|]; [congruence|contradiction]. }
      { intros r [<-|Hr].
        - exists g, w. split; [|lia]. rewrite nth_error_app1; [assumption|lia].
        - destruct (Hak r Hr) as (g' & w' & Hk' & Hw'). exists g', w'. split; [|lia].
          rewrite nth_error_app1; [assumption|eapply nth_lt; eauto]. }
      { lia. }
      rewrite <- app_assoc in I.
      apply (finish_reach _ _ _ _ _ _ _ _ (ext ++ ext2) _ _ _ wss2 lss3 results2 R).
      - apply (Hafter rc wi2 lsz2 cur2 K2 wss2 lss3 cache2 results2 bps2 unused2 (ext ++ ext2) xc); auto.
        + rewrite F1 by (left; reflexivity). assumption.
        + intros r Hr. rewrite F1 by (right; assumption). auto.
        + rewrite app_assoc. rewrite nth_error_app1; [assumption|eapply nth_lt; eauto].
        + rewrite L2 by lia. assumption.
        + intros k Hk. rewrite L2 by lia. auto.
      - intros r Hr. rewrite F1 by (right; assumption). auto.
      - intros k Hk. rewrite L2 by lia. auto.
      - intros k Hk. apply W2. lia. }
    destruct (nth_some cache (nx g * N + j)) as [ident Ei].
    { rewrite (v_cache_len _ _ _ _ _ _ _ _ _ _ HI). nia. }
    rewrite Ei in Hstep. cbn [obind] in Hstep.
    destruct ident as [|rc].
    - destruct (inv_new N NG max Hmax lay _ _ _ _ _ _ (nx g) j HI HNGc ltac:(lia)) as (cache' & Ec & HI').
      rewrite Ec in Hstep. cbn [obind] in Hstep.
      apply (finish_reach _ _ _ _ _ _ _ _ [] _ _ _ wss lss results (reach_step _ _ _ Hstep (reach_refl _))); try reflexivity.
      rewrite app_nil_r. pose proof (v_len _ _ _ _ _ _ _ _ _ _ HI) as Hkl.
      apply (Hsearch (length results) [(nx g, j)]); auto.
      + apply nth_lt in Hx. lia.
      + intros Hi. destruct (Hak _ Hi) as (g' & w' & Hk' & _). apply nth_lt in Hk'. lia.
      + now rewrite nth_error_app2, Nat.sub_diag by lia.
      + rewrite <- Hkl. now rewrite nth_error_app2, Nat.sub_diag by lia.
      + intros r _ Hr. now apply nth_error_app1.
    - pose proof (v_cache _ _ _ _ _ _ _ _ _ _ HI (nx g) j rc HNGc ltac:(lia) Ei) as Hkrc.
      assert (Hrc1 : rc <> ri) by (intros ->; rewrite Hkx in Hkrc; injection Hkrc as _ E; unfold j in *; lia).
      assert (Hrc2 : ~ In rc act).
      { intros Hi. destruct (Hak _ Hi) as (g' & w' & Hk' & Hw'). rewrite Hk' in Hkrc. injection Hkrc as -> ->. unfold j in *; lia. }
      destruct (nth_some results rc) as [xc Exc].
      { rewrite <- (v_len _ _ _ _ _ _ _ _ _ _ HI). eapply nth_lt; eauto. }
      rewrite Exc in Hstep. cbn [obind] in Hstep.
      destruct (v_good _ _ _ _ _ _ _ _ _ _ HI rc xc (nx g) j Exc Hkrc) as [Hlow Hpos].
      { intros [|]; [congruence|contradiction]. }
      destruct ((res_badness xc =? 0) && is_indefinite xc) eqn:Ez.
      { exfalso. unfold is_indefinite in Ez. destruct (res_kind xc); [specialize (Hpos eq_refl); lia|]. lia. }
      destruct (is_indefinite xc && (res_badness xc <=? K - b)) eqn:Er.
      + assert (Hki : res_kind xc = Indefinite) by (unfold is_indefinite in Er; destruct (res_kind xc); [reflexivity|discriminate]).
        destruct (inv_refresh N NG max Hmax lay _ _ _ _ _ _ rc xc HI Exc Hki) as (results' & Es & HI' & Hs).
        rewrite Hki in Hstep. rewrite Es in Hstep. cbn [obind] in Hstep.
        apply (finish_reach _ _ _ _ _ _ _ _ [] _ _ _ wss lss results (reach_step _ _ _ Hstep (reach_refl _))); try reflexivity.
        rewrite app_nil_r. apply (Hsearch rc [] cache results'); auto.
        * rewrite app_nil_r. assumption.
        * apply (nth_set_same _ _ _ _ Es).
        * rewrite app_nil_r. assumption.
      + apply (finish_reach _ _ _ _ _ _ _ _ [] _ _ _ wss lss2 results (reach_step _ _ _ Hstep (reach_refl _))); try reflexivity; [|assumption].
        apply (Hafter rc j (L g) (len w j) (K - b) wss lss2 cache results bps unused [] xc); rewrite ?app_nil_r; auto.
        * unfold exitK. split; [lia|]. split; [left; reflexivity|]. intros Hki. unfold is_indefinite in Er. rewrite Hki in Er. cbn in Er. left. lia.
        * exists line3. split; [assumption|reflexivity].
  Qed.

  Lemma rights w (IH : forall j, (w < j)%nat -> explores j) : forall n c li ri K act keys wss lss cache results bps unused,
    (c + n = N)%nat -> (li <= w)%nat -> (w <= c < N)%nat -> lines_ok lss -> (exists line, nth_error lss li = Some line /\ ls_word_index line = w) -> words_ok wss ->
    nth_error results ri = Some (Result max Indefinite) -> nth_error keys ri = Some (gk li, w) ->
    Inv cache results bps unused keys (ri :: act) -> ~ In ri act ->
    (forall r, In r act -> exists g' w', nth_error keys r = Some (g', w') /\ (w' <= w)%nat) ->
    fitA (L (gk li)) w (S c) ->
    (forall k s, (w < k <= c)%nat -> nth_error wss k = Some s -> ws_cursor_pos s = len w k) -> 0 <= K <= max ->
    finishes (State MoveRight2 c li ri (L (gk li)) (len w (S c)) K wss lss cache results bps unused) w li ri K act keys wss lss results.
  Proof.
    induction n as [|n IHn]; intros c li ri K act keys wss lss cache results bps unused Hn Hli Hc Hlines Hline Hwss Hx Hkx HI Hact Hak Hfit Hcur HK; [lia|].
    set (g := gk li) in *. pose proof max_pos as Hmax.
    assert (Hstep : step BW words (State MoveRight2 c li ri (L g) (len w (S c)) K wss lss cache results bps unused) =
      move_right_2 words (State MoveRight2 c li ri (L g) (len w (S c)) K wss lss cache results bps unused)) by reflexivity.
    unfold move_right_2 in Hstep.
    destruct (Nat.eqb_spec (S c) N) as [EN|EN].
    - assert (Hlay : lay g w [] 0) by (constructor; [lia|]; rewrite <- EN; exact Hfit).
      destruct (inv_leaf N NG max Hmax lay _ _ _ _ _ _ _ _ g w HI Hx eq_refl Hkx Hlay) as (results' & Es & HI').
      rewrite Es in Hstep. cbn [obind] in Hstep.
      eapply (finish_reach _ _ _ _ _ _ _ _ [] _ _ _ _ _ results'); [econstructor; [exact Hstep|constructor]| | |reflexivity|reflexivity].
      + rewrite app_nil_r. apply (finish_now _ _ _ _ _ _ _ _ _ _ _ _ _ _ _ _ (Result 0 (Definite None)) g); auto.
        * apply (nth_set_same _ _ _ _ Es).
        * unfold exitK. split; [lia|]. split; [left; reflexivity|]. discriminate.
        * intros l c' Hl. apply lay_nonneg in Hl. cbn. lia.
      + intros r Hr. apply (nth_set_other _ _ _ _ _ Es). intros ->. contradiction.
    - destruct (nth_some wss (S c)) as [slot Es]; [destruct Hwss as [-> _]; lia|]. rewrite Es in Hstep. cbn [obind] in Hstep.
      destruct (nth_some words (S c)) as [wd Ew]; [lia|]. rewrite Ew in Hstep. cbn [obind] in Hstep.
      destruct Hwss as [Hwl Hwa]. rewrite (Hwa _ _ Es) in Hstep.
      pose proof (len_step w (S c) wd ltac:(lia) Ew) as Hlen.
      pose proof (Hadj (S c)) as Ha. pose proof (Hwords _ _ Ew) as Hsp.
      assert (Hdown : len w (S (S c)) > L g ->
        finishes (State MoveDown (S c) li ri (L g) (len w (S c)) K wss lss cache results bps unused) w li ri K act keys wss lss results).
      { intros Hgt.
        assert (Hnof : forall j', (S c < j')%nat -> ~ fitA (L g) w j').
        { intros j' Hj' Hf. assert (Hf2 : fitA (L g) w (S (S c))) by (apply (fitA_down _ _ _ j'); [lia|assumption]).
          destruct Hf2; lia. }
        apply (options w IH (S c) li ri K K act keys wss lss cache results bps unused (Result max Indefinite)); auto; try lia.
        - split; assumption.
        - apply Hnof. lia.
        - intros k s Hk. apply Hcur. lia.
        - unfold midK. cbn [res_badness res_kind]. split; [lia|]. split; [left; reflexivity|right; reflexivity].
        - intros j' l c' Hj' Hf. exfalso. apply (Hnof j'); [lia|assumption]. }
      assert (Hfwd : forall s', step BW words (State MoveRight2 c li ri (L g) (len w (S c)) K wss lss cache results bps unused) = Some s' ->
        finishes s' w li ri K act keys wss lss results ->
        finishes (State MoveRight2 c li ri (L g) (len w (S c)) K wss lss cache results bps unused) w li ri K act keys wss lss results).
      { intros s' H1 H2. eapply (finish_reach _ _ _ _ _ _ _ _ []); [econstructor; [exact H1|constructor]| |reflexivity|reflexivity|reflexivity].
        rewrite app_nil_r. exact H2. }
      destruct (Z.geb_spec (L g) (len w (S c))); [|apply (Hfwd _ Hstep); apply Hdown; lia].
      destruct (Z.geb_spec (L g - len w (S c)) (adj (S c))); [|apply (Hfwd _ Hstep); apply Hdown; lia].
      destruct (Z.geb_spec (L g - len w (S c) - adj (S c)) (space_size wd)); [|apply (Hfwd _ Hstep); apply Hdown; lia].
      destruct (set_nth_lt wss (S c) (WordSlot (adj (S c)) (len w (S c)))) as [wss' Ews]; [lia|].
      rewrite Ews in Hstep. cbn [obind] in Hstep.
      replace (L g - (L g - len w (S c) - adj (S c) - space_size wd)) with (len w (S (S c))) in Hstep by lia.
      eapply (finish_reach _ _ _ _ _ _ _ _ [] _ _ _ wss'); [econstructor; [exact Hstep|constructor]| |reflexivity|reflexivity|].
      + rewrite app_nil_r. apply IHn; auto; try lia.
        * split; [rewrite (set_nth_length _ _ _ _ Ews); assumption|]. intros k s Hk.
          rewrite (nth_error_set_nth _ _ _ _ k Ews) in Hk. destruct (Nat.eqb_spec k (S c)) as [->|]; [|auto]. injection Hk as <-. reflexivity.
        * right. fold g. lia.
        * intros k s Hk Hs. rewrite (nth_error_set_nth _ _ _ _ k Ews) in Hs. destruct (Nat.eqb_spec k (S c)) as [->|].
          -- injection Hs as <-. reflexivity.
          -- apply Hcur; [lia|assumption].
      + intros k Hk. apply (nth_set_other _ _ _ _ _ Ews). lia.
  Qed.

  Lemma explore w : explores w.
  Proof.
    remember (N - w)%nat as d eqn:Ed. revert w Ed. induction d as [d IHd] using lt_wf_ind. intros w Ed.
    intros li ri K act keys wss lss cache results bps unused lsz cur Hli Hlines Hline Hwss Hx Hkx HI Hact Hak HK.
    assert (IH : forall j, (w < j)%nat -> explores j).
    { intros j Hj. destruct (Nat.lt_ge_cases j N) as [Hlt|Hge].
      - apply (IHd (N - j)%nat); lia.
      - intros ? ? ? ? ? ? ? ? ? ? ? ? ? ?. lia. }
    set (g := gk li) in *.
    assert (Hstep : step BW words (State MoveRight1 w li ri lsz cur K wss lss cache results bps unused) =
      move_right_1 BW (State MoveRight1 w li ri lsz cur K wss lss cache results bps unused)) by reflexivity.
    unfold move_right_1 in Hstep. rewrite Hx in Hstep. cbn [obind res_badness is_indefinite res_kind negb] in Hstep.
    rewrite Z.eqb_refl in Hstep. cbn [negb] in Hstep.
    destruct Hline as (line & El & Hlw). rewrite El in Hstep. cbn [obind] in Hstep.
    destruct (nth_some wss w) as [slot Es]; [destruct Hwss as [-> _]; lia|]. rewrite Es in Hstep. cbn [obind] in Hstep.
    destruct Hwss as [Hwl Hwa]. rewrite (Hwa _ _ Es) in Hstep. rewrite (proj2 (proj2 Hlines _ _ El)) in Hstep. fold g in Hstep.
    destruct (set_nth_lt wss w (WordSlot (adj w) 0)) as [wss' Ews]; [lia|]. rewrite Ews in Hstep. cbn [obind] in Hstep.
    rewrite <- (len_one w) in Hstep.
    eapply (finish_reach _ _ _ _ _ _ _ _ [] _ _ _ wss'); [econstructor; [exact Hstep|constructor]| |reflexivity|reflexivity|].
    - rewrite app_nil_r. unfold g. apply (rights w IH (N - w)); auto; try lia.
      + exists line. split; assumption.
      + split; [rewrite (set_nth_length _ _ _ _ Ews); assumption|]. intros k s Hk.
        rewrite (nth_error_set_nth _ _ _ _ k Ews) in Hk. destruct (Nat.eqb_spec k w) as [->|]; [|auto]. injection Hk as <-. reflexivity.
      + left. reflexivity.
    - intros k Hk. apply (nth_set_other _ _ _ _ _ Ews). lia.
  Qed.

  (* gathering the breakpoints *)
  Lemma lay_breaks g w l c : lay g w l c -> (length l < N - w)%nat.
  Proof. induction 1; cbn [length]; lia. Qed.

  Lemma gather_ok bps i l F : chain bps i l F -> forall fuel, (length l <= fuel)%nat -> gather fuel bps i = Some l.
  Proof.
    induction 1 as [|i b l F Hb Hc IH]; intros fuel Hf.
    - destruct fuel; reflexivity.
    - destruct fuel as [|fuel]; [cbn in Hf; lia|]. cbn [gather]. rewrite Hb. cbn [obind]. rewrite IH by (cbn in Hf; lia). reflexivity.
  Qed.

  (* the whole search *)
  Lemma search wss lss lsz cur : (1 <= N)%nat -> lines_ok lss -> (exists line, nth_error lss 0 = Some line /\ ls_word_index line = 0%nat) -> words_ok wss ->
    exists fuel s x, (forall f, (fuel <= f)%nat ->
      run BW words f (State MoveRight1 0 0 0 lsz cur max wss lss (repeat 0%nat (N * NG)) [Result max Indefinite] [] None) = Some s) /\
      nth_error (results s) (result_index s) = Some x /\ below lay (gk 0) 0 (res_badness x) /\
      match res_kind x with
      | Indefinite => res_badness x = max
      | Definite i => exists l, gather N (breakpoints s) i = Some l /\ lay (gk 0) 0 l (res_badness x) /\ res_badness x < max
      end.
  Proof.
    intros HN Hlines Hline Hwss. pose proof max_pos as Hmax.
    destruct (explore 0%nat 0%nat 0%nat max [] [(gk 0, 0%nat)] wss lss (repeat 0%nat (N * NG)) [Result max Indefinite] [] None lsz cur)
      as (wi2 & lsz2 & cur2 & K2 & wss2 & lss2 & cache2 & results2 & bps2 & unused2 & ext2 & x & R & I & X & E & _); auto; try lia.
    { constructor.
      - reflexivity.
      - now rewrite repeat_length.
      - intros g w r _ _ Hr. apply nth_error_In, repeat_spec in Hr. discriminate.
      - intros r x Hr. destruct r as [|[|]]; cbn in Hr; try discriminate. injection Hr as <-. cbn. lia.
      - intros r x g w i Hr _ Hd. destruct r as [|[|]]; cbn in Hr; try discriminate. injection Hr as <-. discriminate.
      - intros r x g w Hr _ Hn. destruct r as [|[|]]; cbn in Hr; try discriminate. exfalso. apply Hn. left. reflexivity.
      - intros r x h r' x' i l F _ Hr Hd. destruct r as [|[|]]; cbn in Hr; try discriminate. injection Hr as <-. discriminate.
      - exists [], []. split; [constructor|]. intros r x i l F _ _ _ k _ []. }
    { intros r []. }
    assert (Hk : nth_error ([(gk 0, 0%nat)] ++ ext2) 0 = Some (gk 0, 0%nat)) by reflexivity.
    destruct (v_good _ _ _ _ _ _ _ _ _ _ I 0%nat x (gk 0) 0%nat X Hk ltac:(auto)) as [Hlow _].
    pose proof (v_bad _ _ _ _ _ _ _ _ _ _ I _ _ X) as Hb.
    set (s2 := State Done wi2 0 0 lsz2 cur2 K2 wss2 lss2 cache2 results2 bps2 unused2).
    destruct (reach_run (State MoveRight1 0 0 0 lsz cur max wss lss (repeat 0%nat (N * NG)) [Result max Indefinite] [] None) s2) as [fuel Hf].
    { eapply reach_trans; [exact R|]. econstructor; [reflexivity|constructor]. }
    { reflexivity. }
    exists fuel, s2, x. split; [exact Hf|]. split; [exact X|]. split; [exact Hlow|].
    unfold exitK in E. destruct E as (E1 & E2 & E3).
    destruct (res_kind x) as [|i] eqn:Ek.
    - destruct (E3 eq_refl); [|assumption].
      destruct E2 as [|[[? [|]]|[? ?]]]; [lia|congruence|assumption|congruence].
    - destruct (v_chain _ _ _ _ _ _ _ _ _ _ I 0%nat x (gk 0) 0%nat i X Hk Ek) as (l & F & Hc & Hl & Hlt).
      exists l. split; [apply (gather_ok _ _ _ _ Hc); pose proof (lay_breaks _ _ _ _ Hl); lia|]. split; assumption.
  Qed.
End Search.
