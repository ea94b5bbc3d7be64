(* C38: RectanglePacker::pack() *)
From Coq Require Import ZArith Bool List Lia ZifyBool Permutation Sorted.
From Verif Require Import CInt ArrLib RectPackModel RectPackSpec RectPackProofs.
Import ListNotations.
Open Scope Z_scope.

(* a packer to which rectangles of the given sizes were added, in order *)
Fixpoint add_rects (p : packer) (sizes : list (Z * Z)) : option packer :=
  match sizes with
  | [] => Some p
  | (w, h) :: sizes => let? p := add_rect p w h in add_rects p sizes
  end.

Lemma add_rects_ok sizes : forall p, Forall (fun s => 0 <= fst s /\ 0 <= snd s) sizes ->
  add_rects p sizes = Some (Packer (p_rects p ++ map (fun s => Rect (fst s) (snd s) 0 0 0) sizes) (p_bins p) (p_nodes p)).
Proof.
  induction sizes as [|[w h] sizes IH]; intros p HF.
  - cbn. rewrite app_nil_r. now destruct p.
  - cbn [add_rects]. apply Forall_cons_iff in HF as [Hs HF]. cbn [fst snd] in Hs. unfold add_rect.
    destruct (Z.ltb_spec w 0); [lia|]. destruct (Z.ltb_spec h 0); [lia|]. cbn [orb obind].
    rewrite IH by assumption. cbn [p_rects p_bins p_nodes map fst snd]. now rewrite <- app_assoc.
Qed.

Lemma ar_exact t z : ity_ok t -> 0 <= z <= imax t -> ar t z = Some z.
Proof. intros Ht Hz. now apply ar_ok. Qed.

Lemma ct_exact t z : ity_ok t -> 0 <= z <= imax t -> ct t z = z.
Proof. intros Ht Hz. now apply ct_ok. Qed.

Definition fits (margin bin_w bin_h : Z) (s : Z * Z) : Prop :=
  fst s + 2 * margin <= bin_w /\ snd s + 2 * margin <= bin_h.

Section Pack.
  Variable t : ity.
  Hypothesis Ht : ity_ok t.
  Variables spacing margin : Z.
  Hypothesis Hsp : 0 <= spacing <= imax t.
  Hypothesis Hmg : 0 <= margin <= imax t.
  Variables bin_w bin_h : Z.
  Hypothesis Hbw : 0 <= bin_w <= imax t.
  Hypothesis Hbh : 0 <= bin_h <= imax t.
  Variable max_bins : nat.

  Lemma pack_start p :
    pack t spacing margin p bin_w bin_h max_bins =
    if (2 * margin <=? bin_w) && (2 * margin <=? bin_h) then
      let? order := stable_sort (p_rects p) (seq 0 (length (p_rects p))) in
      match p_nodes p, p_bins p with
      | [], [] => place_loop t spacing order margin margin (bin_w - 2 * margin) (bin_h - 2 * margin) max_bins p
      | _, _ => None
      end
    else Some (false, p).
  Proof.
    unfold pack.
    assert (Hts : forall size, 0 <= size <= imax t ->
      (if margin >? size then Some true else let? d := ar t (size - margin) in Some (margin >? d)) =
      Some (negb (2 * margin <=? size))).
    { intros size Hs. destruct (Z.gtb_spec margin size).
      - f_equal. lia.
      - rewrite ar_exact by (auto; lia). cbn [obind]. f_equal. lia. }
    rewrite (Hts bin_w Hbw), (Hts bin_h Hbh). cbn [obind].
    destruct (Z.leb_spec (2 * margin) bin_w); cbn [negb andb obind]; [|reflexivity].
    destruct (Z.leb_spec (2 * margin) bin_h); cbn [negb]; [|reflexivity].
    rewrite !ar_exact by (auto; lia). cbn [obind]. rewrite !ar_exact by (auto; lia). cbn [obind].
    rewrite !ct_exact by (auto; lia). reflexivity.
  Qed.

  (* C38.  However the rectangles, the bin size, the spacing and the margin are chosen,
     packing has no undefined behaviour and fails no assertion; the sizes of the
     rectangles stay as they are; when true is returned, the positions reported by
     get_rect_pos() and the sizes reported by get_utilized_width() and
     get_utilized_height() are a packing of the rectangles. *)
  Theorem rectpack_exact sizes : Forall (fun s => 0 <= fst s <= imax t /\ 0 <= snd s <= imax t) sizes ->
    exists p ok p', add_rects empty sizes = Some p /\ pack t spacing margin p bin_w bin_h max_bins = Some (ok, p') /\
      map (fun rc => (r_w rc, r_h rc)) (p_rects p') = sizes /\
      (ok = true ->
       packing sizes spacing margin bin_w bin_h (length (p_bins p')) max_bins (rect_pos p')
         (fun k => let? w := utilized_width t margin p' k in let? h := utilized_height t margin p' k in Some (w, h))) /\
      (ok = false -> 2 * margin > bin_w \/ 2 * margin > bin_h \/ (max_bins < length sizes)%nat \/
         exists s, In s sizes /\ ~ fits margin bin_w bin_h s).
  Proof.
    intros HF.
    set (rects := map (fun s => Rect (fst s) (snd s) 0 0 0) sizes).
    assert (Hdims : map (fun rc => (r_w rc, r_h rc)) rects = sizes).
    { unfold rects. rewrite map_map. cbn. rewrite <- (map_id sizes) at 2. apply map_ext. now intros []. }
    assert (Hlen : length rects = length sizes) by (unfold rects; now rewrite map_length).
    exists (Packer rects [] []). rewrite pack_start. cbn [p_rects p_nodes p_bins].
    destruct (Z.leb_spec (2 * margin) bin_w); cbn [andb].
    2:{ exists false, (Packer rects [] []). split; [|split; [reflexivity|split; [exact Hdims|split; [discriminate|auto with zarith]]]].
        apply add_rects_ok. eapply Forall_impl; [|exact HF]. cbn. lia. }
    destruct (Z.leb_spec (2 * margin) bin_h).
    2:{ exists false, (Packer rects [] []). split; [|split; [reflexivity|split; [exact Hdims|split; [discriminate|auto with zarith]]]].
        apply add_rects_ok. eapply Forall_impl; [|exact HF]. cbn. lia. }
    destruct (stable_sort_ok rects (seq 0 (length rects))) as (order & Eo & HP).
    { intros j Hj. apply in_seq in Hj. lia. }
    rewrite Eo. cbn [obind].
    destruct (place_ok t spacing margin margin (bin_w - 2 * margin) (bin_h - 2 * margin) max_bins Ht Hsp
      ltac:(lia) ltac:(lia) ltac:(lia) ltac:(lia) ltac:(lia) ltac:(lia) order rects [] [] [] [])
      as (ok & rects' & bins' & nodes' & E & Hd & Hmb & HR).
    { unfold rects. apply Forall_map. eapply Forall_impl; [|exact HF]. cbn. lia. }
    { apply inv_empty. }
    { cbn. lia. }
    { cbn. lia. }
    { rewrite app_nil_r. eapply Permutation_NoDup; [symmetry; exact HP|apply seq_NoDup]. }
    { intros i Hi. rewrite HP in Hi. apply in_seq in Hi. lia. }
    exists ok, (Packer rects' bins' nodes').
    assert (Hsz : map (fun rc => (r_w rc, r_h rc)) rects' = sizes) by (etransitivity; [exact Hd|exact Hdims]).
    split. { apply add_rects_ok. eapply Forall_impl; [|exact HF]. cbn. lia. }
    split; [exact E|]. cbn [p_rects p_bins]. split; [exact Hsz|]. split.
    - intros ->. destruct HR as (placed & Ls & HPp & HI & Hus). rewrite app_nil_r in HPp.
      assert (Hin : forall i rc, nth_error rects' i = Some rc -> In i placed).
      { intros i rc Hi. rewrite HPp, HP. apply in_seq.
        assert (i < length rects')%nat by (apply nth_error_Some; congruence).
        assert (length rects' = length rects) by (rewrite <- (map_length (fun rc => (r_w rc, r_h rc)) rects'), Hsz; lia).
        lia. }
      assert (Hat : forall i w h, nth_error sizes i = Some (w, h) ->
        exists rc, nth_error rects' i = Some rc /\ r_w rc = w /\ r_h rc = h /\ In i placed).
      { intros i w h Hi. rewrite <- Hsz, nth_error_map in Hi. destruct (nth_error rects' i) as [rc|] eqn:Er; [|discriminate].
        injection Hi as E1 E2. exists rc. eauto. }
      assert (Hsub : forall i rc, nth_error rects' i = Some rc ->
        (r_bin rc < length bins')%nat /\ margin <= r_x rc /\ r_x rc + r_w rc + margin <= bin_w /\
        margin <= r_y rc /\ r_y rc + r_h rc + margin <= bin_h).
      { intros i rc Hi. destruct (i_pl _ _ _ _ _ _ _ _ _ _ HI i (Hin _ _ Hi)) as (rc2 & Hi2 & Hb & Hs).
        rewrite Hi in Hi2. injection Hi2 as <-. unfold sub, rbox in Hs. cbn [bx by_ bw bh] in Hs. lia. }
      constructor.
      + exact Hmb.
      + intros i w h Hi. destruct (Hat _ _ _ Hi) as (rc & Er & <- & <- & Hp).
        destruct (Hsub _ _ Er) as (Hb & Hs). exists (r_bin rc), (r_x rc), (r_y rc).
        unfold rect_pos. cbn [p_rects]. rewrite Er. cbn [obind]. split; [reflexivity|]. split; [assumption|].
        unfold inside. cbn [bx by_ bw bh]. lia.
      + intros i j wi hi wj hj k xi yi xj yj Hij Hi Hj Hpi Hpj.
        destruct (Hat _ _ _ Hi) as (ri & Eri & <- & <- & Hip). destruct (Hat _ _ _ Hj) as (rj & Erj & <- & <- & Hjp).
        unfold rect_pos in Hpi, Hpj. cbn [p_rects] in Hpi, Hpj. rewrite Eri in Hpi. rewrite Erj in Hpj. cbn [obind] in Hpi, Hpj.
        injection Hpi as <- <- <-. injection Hpj as Hk <- <-.
        exact (i_rr _ _ _ _ _ _ _ _ _ _ HI i j ri rj Hip Hjp Hij Eri Erj (eq_sym Hk)).
      + intros k Hk. destruct (nth_error bins' k) as [b|] eqn:Eb; [|apply nth_error_None in Eb; lia].
        destruct (i_mx _ _ _ _ _ _ _ _ _ _ HI k b Eb) as (Hx & Hy & Ex & Ey & Hall).
        exists (b_max_x b + margin), (b_max_y b + margin).
        unfold utilized_width, utilized_height. cbn [p_bins]. rewrite Eb. cbn [obind].
        rewrite !ar_exact by (auto; lia). cbn [obind]. rewrite !ct_exact by (auto; lia).
        split; [reflexivity|]. split; [lia|]. split; [lia|].
        assert (Hpos : forall i w h x y, nth_error sizes i = Some (w, h) -> rect_pos (Packer rects' bins' nodes') i = Some (k, x, y) ->
          exists rc, nth_error rects' i = Some rc /\ r_w rc = w /\ r_h rc = h /\ In i placed /\ r_bin rc = k /\ r_x rc = x /\ r_y rc = y).
        { intros i w h x y Hi Hp. destruct (Hat _ _ _ Hi) as (rc & Er & <- & <- & Hip). exists rc.
          unfold rect_pos in Hp. cbn [p_rects] in Hp. rewrite Er in Hp. cbn [obind] in Hp. injection Hp as <- <- <-. auto 10. }
        assert (Hrev : forall i rc, nth_error rects' i = Some rc -> r_bin rc = k ->
          nth_error sizes i = Some (r_w rc, r_h rc) /\ rect_pos (Packer rects' bins' nodes') i = Some (k, r_x rc, r_y rc)).
        { intros i rc Er Hb. split.
          - rewrite <- Hsz, nth_error_map, Er. reflexivity.
          - unfold rect_pos. cbn [p_rects]. rewrite Er. cbn [obind]. now rewrite Hb. }
        destruct (Hus k Hk) as (q & rq & Hq & Eq & Hqk).
        destruct (Hsub _ _ Eq) as (_ & Hqs). destruct (Hall _ _ Hq Eq Hqk) as [Hqx Hqy].
        assert (Hqw : 0 <= r_w rq /\ 0 <= r_h rq).
        { destruct (Hrev _ _ Eq Hqk) as [Hs _]. apply nth_error_In in Hs. rewrite Forall_forall in HF.
          specialize (HF _ Hs). cbn in HF. lia. }
        split; [|split].
        * intros i w h x y Hi Hp. destruct (Hpos _ _ _ _ _ Hi Hp) as (rc & Er & <- & <- & Hip & Hb & <- & <-).
          destruct (Hall _ _ Hip Er Hb). destruct (Hsub _ _ Er) as (_ & ?). unfold inside. cbn [bx by_ bw bh]. lia.
        * destruct Ex as [Ex|(p & rc & Hp & Er & Hb & Ex)].
          -- destruct (Hrev _ _ Eq Hqk) as [H1 H2]. exists q, (r_w rq), (r_h rq), (r_x rq), (r_y rq). split; [exact H1|]. split; [exact H2|]. lia.
          -- destruct (Hrev _ _ Er Hb) as [H1 H2]. exists p, (r_w rc), (r_h rc), (r_x rc), (r_y rc). split; [exact H1|]. split; [exact H2|]. lia.
        * destruct Ey as [Ey|(p & rc & Hp & Er & Hb & Ey)].
          -- destruct (Hrev _ _ Eq Hqk) as [H1 H2]. exists q, (r_w rq), (r_h rq), (r_x rq), (r_y rq). split; [exact H1|]. split; [exact H2|]. lia.
          -- destruct (Hrev _ _ Er Hb) as [H1 H2]. exists p, (r_w rc), (r_h rc), (r_x rc), (r_y rc). split; [exact H1|]. split; [exact H2|]. lia.
    - intros ->. destruct HR as (i & rc & Hi & Er & Hr). right. right.
      assert (Hol : length order = length sizes) by (rewrite (Permutation_length HP), seq_length; exact Hlen).
      cbn [length] in Hr. rewrite Hol in Hr.
      assert (Hs : In (r_w rc, r_h rc) sizes).
      { rewrite <- Hdims. apply in_map_iff. exists rc. split; [reflexivity|]. eapply nth_error_In; eauto. }
      destruct Hr as [Hr|[Hr|Hr]]; [right|right|left; lia]; exists (r_w rc, r_h rc); (split; [assumption|]); unfold fits; cbn [fst snd]; lia.
  Qed.

  (* pack() finds a packing whenever there are at least as many bins as rectangles and
     each rectangle fits into a bin *)
  Theorem rectpack_success sizes : Forall (fun s => 0 <= fst s <= imax t /\ 0 <= snd s <= imax t) sizes ->
    2 * margin <= bin_w -> 2 * margin <= bin_h -> Forall (fits margin bin_w bin_h) sizes -> (length sizes <= max_bins)%nat ->
    exists p p', add_rects empty sizes = Some p /\ pack t spacing margin p bin_w bin_h max_bins = Some (true, p').
  Proof.
    intros HF Hw Hh Hfit Hn. destruct (rectpack_exact sizes HF) as (p & ok & p' & E1 & E2 & _ & _ & Hfail).
    exists p, p'. split; [assumption|]. destruct ok; [assumption|]. exfalso.
    destruct (Hfail eq_refl) as [?|[?|[?|(s & Hs & Hns)]]]; try lia.
    rewrite Forall_forall in Hfit. apply Hns. auto.
  Qed.

  (* pack() cannot be called again without a call of reset(): the assertions that there
     are no nodes and no bins fail (lines 299-300) once a rectangle was placed *)
  Theorem rectpack_again_refuted sizes p p' : sizes <> [] ->
    Forall (fun s => 0 <= fst s <= imax t /\ 0 <= snd s <= imax t) sizes -> add_rects empty sizes = Some p ->
    pack t spacing margin p bin_w bin_h max_bins = Some (true, p') ->
    pack t spacing margin p' bin_w bin_h max_bins = None.
  Proof.
    intros Hne HF E1 E2. destruct (rectpack_exact sizes HF) as (p0 & ok & p1 & E3 & E4 & Hsz & HP & _).
    rewrite E1 in E3. injection E3 as <-. rewrite E2 in E4. injection E4 as <- <-. specialize (HP eq_refl).
    rewrite pack_start in *.
    destruct ((2 * margin <=? bin_w) && (2 * margin <=? bin_h)); [|discriminate].
    destruct (stable_sort_ok (p_rects p') (seq 0 (length (p_rects p')))) as (order & Eo & _).
    { intros j Hj. apply in_seq in Hj. lia. }
    rewrite Eo. cbn [obind].
    destruct sizes as [|[w h] sizes]; [congruence|].
    destruct (pk_inside _ _ _ _ _ _ _ _ _ HP 0%nat w h eq_refl) as (k & x & y & _ & Hk & _).
    destruct (p_bins p'); [cbn in Hk; lia|]. now destruct (p_nodes p').
  Qed.
End Pack.

(* The rectangles are placed in order of descending height, those of the same height in
   order of descending width, and those of the same size in the order in which they were
   added *)
Definition in_order (rects : list rect) (i j : nat) : Prop :=
  forall a b, nth_error rects i = Some a -> nth_error rects j = Some b ->
  r_h a > r_h b \/ (r_h a = r_h b /\ (r_w a > r_w b \/ (r_w a = r_w b /\ (i < j)%nat))).

Lemma insert_sorted_sorted rects i : (i < length rects)%nat -> forall l,
  (forall j, In j l -> (i < j < length rects)%nat) -> StronglySorted (in_order rects) l ->
  exists l', insert_sorted rects i l = Some l' /\ Permutation l' (i :: l) /\ StronglySorted (in_order rects) l'.
Proof.
  intros Hi. induction l as [|j l IH]; intros Hl HS.
  - exists [i]. cbn. split; [reflexivity|]. split; [reflexivity|]. repeat constructor.
  - cbn [insert_sorted]. unfold before.
    assert (Hj : (i < j < length rects)%nat) by (apply Hl; left; reflexivity).
    destruct (nth_error rects j) as [a|] eqn:Ea; [|apply nth_error_None in Ea; lia]. cbn [obind].
    destruct (nth_error rects i) as [b|] eqn:Eb; [|apply nth_error_None in Eb; lia]. cbn [obind].
    apply StronglySorted_inv in HS as [HS Hjl].
    destruct ((r_h a >? r_h b) || _) eqn:Ec.
    + destruct IH as (l' & E & HP & HS'); [intros k Hk; apply Hl; right; assumption|assumption|]. rewrite E. cbn [obind].
      exists (j :: l'). split; [reflexivity|]. split; [rewrite HP; apply perm_swap|].
      constructor; [assumption|]. rewrite Forall_forall in *. intros k Hk. rewrite HP in Hk. destruct Hk as [<-|Hk]; [|auto].
      intros a' b' Ha' Hb'. rewrite Ea in Ha'. rewrite Eb in Hb'. injection Ha' as <-. injection Hb' as <-. lia.
    + exists (i :: j :: l). split; [reflexivity|]. split; [reflexivity|]. constructor; [constructor; assumption|].
      assert (Hij : forall a' b', a' = b -> b' = a -> r_h a' > r_h b' \/ (r_h a' = r_h b' /\ (r_w a' > r_w b' \/ r_w a' = r_w b'))).
      { intros a' b' -> ->. lia. }
      specialize (Hij b a eq_refl eq_refl).
      constructor.
      * intros a' b' Ha' Hb'. rewrite Eb in Ha'. rewrite Ea in Hb'. injection Ha' as <-. injection Hb' as <-. lia.
      * rewrite Forall_forall in *. intros k Hk c d Hc Hd. rewrite Eb in Hc. injection Hc as <-.
        specialize (Hjl k Hk a d Ea Hd). specialize (Hl k (or_intror Hk)). lia.
Qed.

Theorem rectpack_sort_exact rects : exists order, stable_sort rects (seq 0 (length rects)) = Some order /\
  Permutation order (seq 0 (length rects)) /\ StronglySorted (in_order rects) order.
Proof.
  assert (H : forall n s, (s + n = length rects)%nat -> exists order, stable_sort rects (seq s n) = Some order /\
    Permutation order (seq s n) /\ StronglySorted (in_order rects) order).
  { induction n as [|n IH]; intros s Hs.
    - exists []. split; [reflexivity|]. split; [reflexivity|constructor].
    - cbn [seq stable_sort]. destruct (IH (S s)) as (l & E & HP & HS); [lia|]. rewrite E. cbn [obind].
      destruct (insert_sorted_sorted rects s ltac:(lia) l) as (l' & E' & HP' & HS').
      { intros j Hj. rewrite HP in Hj. apply in_seq in Hj. lia. }
      { assumption. }
      exists l'. split; [assumption|]. split; [rewrite HP'; now constructor|assumption]. }
  apply H. reflexivity.
Qed.

(* C48: suggest_bin_width() *)
Lemma max_rect_width_ok rects : forall m, m <= max_rect_width rects m /\
  (forall rc, In rc rects -> r_w rc <= max_rect_width rects m) /\
  (max_rect_width rects m = m \/ exists rc, In rc rects /\ max_rect_width rects m = r_w rc).
Proof.
  induction rects as [|r rects IH]; intros m; cbn [max_rect_width].
  - split; [lia|]. split; [intros rc []|auto].
  - destruct (Z.gtb_spec (r_w r) m) as [H|H].
    + destruct (IH (r_w r)) as (H1 & H2 & H3). split; [lia|]. split.
      * intros rc [<-|Hrc]; auto.
      * right. destruct H3 as [H3|(rc & Hrc & H3)]; [exists r|exists rc]; cbn; auto.
    + destruct (IH m) as (H1 & H2 & H3). split; [lia|]. split.
      * intros rc [<-|Hrc]; [lia|auto].
      * destruct H3 as [H3|(rc & Hrc & H3)]; [auto|]. right. exists rc. cbn. auto.
Qed.

Section Suggest.
  Variable t : ity.
  Hypothesis Ht : ity_ok t.
  Variables spacing margin : Z.
  Hypothesis Hsp : 0 <= spacing <= imax t.
  Hypothesis Hmg : 0 <= margin <= imax t.
  Variable UW : Z.
  Hypothesis HUW : 0 < UW.

  Lemma add_margins_ok n : forall w, 0 <= w <= imax t ->
    add_margins t margin n w = Some (Z.min (imax t) (w + Z.of_nat n * margin)).
  Proof.
    induction n as [|n IH]; intros w Hw; cbn [add_margins].
    - f_equal. lia.
    - rewrite ar_exact by (auto; lia). cbn [obind]. destruct (Z.leb_spec margin (imax t - w)).
      + rewrite ar_exact by (auto; lia). cbn [obind]. rewrite ct_exact by (auto; lia). rewrite IH by lia. f_equal. nia.
      + f_equal. nia.
  Qed.

  Lemma ct_range z : imin t <= ct t z <= imax t.
  Proof. exact (wrap_range t z Ht). Qed.

  Let ok (rc : rect) := 0 <= r_w rc <= imax t /\ 0 <= r_h rc <= imax t.

  (* Unless an assertion fails, every rectangle with its margins fits into the suggested
     width, or the suggested width is the greatest of all *)
  Theorem suggest_bin_width_partial rects : Forall ok rects -> forall w, suggest_bin_width t spacing margin UW rects = Some w ->
    0 <= w <= imax t /\ forall rc, In rc rects -> w = imax t \/ r_w rc + 2 * margin <= w.
  Proof.
    intros HF w. unfold suggest_bin_width.
    destruct (max_rect_width_ok rects 0) as (H0 & Hall & Hone). set (mw := max_rect_width rects 0) in *.
    assert (Hm : 0 <= mw <= imax t).
    { split; [lia|]. destruct Hone as [->|(rc & Hrc & ->)]; [lia|]. rewrite Forall_forall in HF. apply HF in Hrc. unfold ok in Hrc. lia. }
    assert (Hfin : forall z w, add_margins t margin 2 (Z.max (ct t z) mw) = Some w ->
      0 <= w <= imax t /\ forall rc, In rc rects -> w = imax t \/ r_w rc + 2 * margin <= w).
    { intros z w'. pose proof (ct_range z). rewrite add_margins_ok by lia. change (Z.of_nat 2) with 2. intros E.
      assert (Ew : w' = Z.min (imax t) (Z.max (ct t z) mw + 2 * margin)) by congruence. clear E. subst w'.
      split; [lia|]. intros rc Hrc. apply Hall in Hrc. lia. }
    destruct (total_area spacing UW rects 0); [apply Hfin|].
    destruct (_ >? 1); [|discriminate]. cbv zeta.
    destruct (total_area_2 _ _ _ _); [apply Hfin|]. intros E. injection E as <-.
    split; [lia|]. auto.
  Qed.

  (* If the areas are not too large, the suggested width is that of a square of the total
     area, where the spacing is added twice to the width and not to the height of each
     rectangle *)
  Theorem suggest_bin_width_exact rects : Forall ok rects -> isigned t = true -> UW >= iwidth t ->
    let area := fold_right Z.add 0 (map (fun rc => (r_w rc + 2 * spacing) * r_h rc) rects) in
    imax t + 2 * spacing < 2 ^ UW -> area < 2 ^ UW -> Z.sqrt area - spacing <= imax t ->
    suggest_bin_width t spacing margin UW rects =
      Some (Z.min (imax t) (Z.max (Z.sqrt area - spacing) (fold_right Z.max 0 (map r_w rects)) + 2 * margin)).
  Proof.
    intros HF Hs HU area Hwid Harea Hsq.
    assert (Hta : forall rs a, Forall ok rs -> 0 <= a ->
      let s := fold_right Z.add 0 (map (fun rc => (r_w rc + 2 * spacing) * r_h rc) rs) in
      0 <= s /\ (a + s < 2 ^ UW -> total_area spacing UW rs a = Some (a + s))).
    { induction rs as [|r rs IH]; intros a Hf Ha; cbn [map fold_right].
      - split; [lia|]. intros _. cbn. f_equal. lia.
      - apply Forall_cons_iff in Hf as [Hr Hf]. unfold ok in Hr.
        assert (0 <= (r_w r + 2 * spacing) * r_h r) by (apply Z.mul_nonneg_nonneg; lia).
        destruct (IH (a + (r_w r + 2 * spacing) * r_h r) Hf ltac:(lia)) as [IH0 IH1]. cbv zeta in *.
        split; [lia|]. intros Hlt. cbn [total_area].
        replace (r_w r + spacing + spacing) with (r_w r + 2 * spacing) by lia.
        destruct (Z.ltb_spec (r_w r + spacing) (2 ^ UW)); [|lia].
        destruct (Z.ltb_spec (r_w r + 2 * spacing) (2 ^ UW)); [|lia].
        destruct (Z.ltb_spec ((r_w r + 2 * spacing) * r_h r) (2 ^ UW)); [|lia].
        destruct (Z.ltb_spec (a + (r_w r + 2 * spacing) * r_h r) (2 ^ UW)); [|lia]. cbn [andb].
        rewrite IH1 by lia. f_equal. lia. }
    destruct (Hta rects 0 HF ltac:(lia)) as [Ha0 Hta1]. fold area in Ha0, Hta1. unfold suggest_bin_width. rewrite Hta1 by lia.
    rewrite Z.add_0_l.
    assert (Hmw : forall rs m, max_rect_width rs m = Z.max m (fold_right Z.max 0 (map r_w rs)) \/ m < 0).
    { induction rs as [|r rs IH]; intros m; cbn [max_rect_width map fold_right]; [lia|].
      destruct (IH (if r_w r >? m then r_w r else m)) as [Ei|Hn]; [rewrite Ei|]; destruct (Z.gtb_spec (r_w r) m); lia. }
    assert (Hmx : max_rect_width rects 0 = fold_right Z.max 0 (map r_w rects)).
    { destruct (Hmw rects 0) as [->|?]; [|lia].
      assert (0 <= fold_right Z.max 0 (map r_w rects)) by (clear; induction rects; cbn; lia). lia. }
    destruct (max_rect_width_ok rects 0) as (H0 & Hall & Hone).
    assert (Hm : 0 <= max_rect_width rects 0 <= imax t).
    { split; [lia|]. destruct Hone as [->|(rc & Hrc & ->)]; [lia|]. rewrite Forall_forall in HF. apply HF in Hrc. unfold ok in Hrc. lia. }
    rewrite Hmx in *.
    assert (Hct : ct t ((Z.sqrt area - spacing) mod 2 ^ UW) = Z.sqrt area - spacing).
    { pose proof (Z.sqrt_nonneg area). unfold ct.
      assert (Hw : in_range t (Z.sqrt area - spacing)).
      { unfold in_range, imin. rewrite Hs. unfold imax in *. rewrite Hs in *. lia. }
      apply (wrap_eq_of_cong t _ _ (- ((Z.sqrt area - spacing) / 2 ^ UW) * 2 ^ (UW - iwidth t)) Ht Hw).
      pose proof (ity_ok_width _ Ht).
      rewrite <- Z.mul_assoc, <- Z.pow_add_r by lia. replace (UW - iwidth t + iwidth t) with UW by lia.
      assert (0 < 2 ^ UW) by (apply Z.pow_pos_nonneg; lia).
      rewrite Z.mod_eq by lia. lia. }
    rewrite Hct. rewrite add_margins_ok by (pose proof (ct_range ((Z.sqrt area - spacing) mod 2 ^ UW)); rewrite Hct in *; lia).
    reflexivity.
  Qed.
End Suggest.

(* An assertion fails if the comp_type is int, std::uintmax_t has 64 bits, and the total area
   is too large for 64 bits. *)
Theorem suggest_bin_width_refuted : exists rects,
  Forall (fun rc => 0 <= r_w rc <= imax t_int /\ 0 <= r_h rc <= imax t_int) rects /\
  suggest_bin_width t_int 0 0 64 rects = None.
Proof.
  exists (repeat (Rect (2 ^ 31 - 1) (2 ^ 31 - 1) 0 0 0) 5). split; [|vm_compute; reflexivity].
  apply Forall_forall. intros rc H. apply repeat_spec in H as ->. split; vm_compute; intuition congruence.
Qed.

(* With comp_type unsigned int, the suggested width is enormous for one small rectangle *)
Theorem suggest_bin_width_unsigned_refuted :
  suggest_bin_width t_uint 10 0 64 [Rect 1 1 0 0 0] = Some (2 ^ 32 - 6).
Proof. vm_compute. reflexivity. Qed.

Example suggest_bin_width_ex : suggest_bin_width t_int 1 2 64
  (map (fun s => Rect (fst s) (snd s) 0 0 0) [(3, 4); (7, 8); (8, 8); (5, 0); (12, 3)]) =
  Some (Z.max (Z.sqrt (20 + 72 + 80 + 42) - 1) 12 + 4).
Proof. vm_compute. reflexivity. Qed.
Example suggest_bin_width_max_ex : suggest_bin_width t_int 0 100 64 [Rect (2 ^ 31 - 5) 1 0 0 0] = Some (2 ^ 31 - 1).
Proof. vm_compute. reflexivity. Qed.
(* the case of MulPrecInt *)
Example suggest_bin_width_wide_ex : suggest_bin_width (ITy 64 true) 5 7 64
  (repeat (Rect (2 ^ 40) (2 ^ 41) 0 0 0) 6) = Some (Z.sqrt (6 * ((2 ^ 40 + 5) * (2 ^ 41 + 5))) - 5 + 14).
Proof. vm_compute. reflexivity. Qed.

(* Five rectangles with spacing 1 and margin 2, type int: they need two bins of size
   20 by 12. *)
Definition rectpack_sizes : list (Z * Z) := [(3, 4); (7, 8); (8, 8); (5, 0); (12, 3)].

Definition rectpack_run (max_bins : nat) :=
  let? p := add_rects empty rectpack_sizes in
  let? (ok, p) := pack t_int 1 2 p 20 12 max_bins in
  Some (ok, length (p_bins p), map (rect_pos p) (seq 0 5),
    map (fun k => (utilized_width t_int 2 p k, utilized_height t_int 2 p k)) (seq 0 2)).

Example rectpack_ex :
  rectpack_run 2 = Some (true, 2%nat,
    [Some (1%nat, 2, 2); Some (0%nat, 11, 2); Some (0%nat, 2, 2); Some (1%nat, 6, 6); Some (1%nat, 6, 2)],
    [(Some 20, Some 12); (Some 20, Some 8)]).
Proof. vm_compute. reflexivity. Qed.

Example rectpack_hyps : ity_ok t_int /\ 0 <= 1 <= imax t_int /\ 0 <= 2 <= imax t_int /\
  Forall (fun s => 0 <= fst s <= imax t_int /\ 0 <= snd s <= imax t_int) rectpack_sizes /\
  Forall (fits 2 20 12) rectpack_sizes.
Proof.
  unfold rectpack_sizes, fits. change (imax t_int) with 2147483647. cbn [fst snd].
  split; [unfold ity_ok; cbn; lia|]. split; [lia|]. split; [lia|]. split; repeat (apply Forall_cons; [cbn [fst snd]; lia|]); constructor.
Qed.

(* one bin is not enough *)
Example rectpack_fail_ex : exists p n l u, rectpack_run 1 = Some (false, n, l, u) /\ add_rects empty rectpack_sizes = Some p.
Proof. do 4 eexists. split; vm_compute; reflexivity. Qed.

(* again without reset() *)
Example rectpack_again_ex :
  (let? p := add_rects empty rectpack_sizes in
   let? (ok, p) := pack t_int 1 2 p 20 12 2 in Some ok) = Some true /\
  (let? p := add_rects empty rectpack_sizes in
   let? (ok, p) := pack t_int 1 2 p 20 12 2 in pack t_int 1 2 p 20 12 2) = None.
Proof. split; vm_compute; reflexivity. Qed.

Example rectpack_sort_ex : stable_sort (map (fun s => Rect (fst s) (snd s) 0 0 0) (rectpack_sizes ++ [(8, 8)])) (seq 0 6) =
  Some [2; 5; 1; 0; 4; 3]%nat.
Proof. vm_compute. reflexivity. Qed.

Print Assumptions rectpack_exact.
Print Assumptions rectpack_success.
Print Assumptions rectpack_again_refuted.
Print Assumptions rectpack_sort_exact.
Print Assumptions suggest_bin_width_partial.
Print Assumptions suggest_bin_width_exact.
Print Assumptions suggest_bin_width_refuted.
Print Assumptions suggest_bin_width_unsigned_refuted.
