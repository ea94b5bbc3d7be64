(* Lemmas on Reader::adjust and on Reader::read_e *)
From Coq Require Import ZArith Bool List Lia.
From Verif Require Import CInt IntModel IntProofs3 PixelBoxModel PixelBoxSpec PixelBoxProps.
From Verif Require Import FalloffModel FalloffSpec FalloffProofs.
From Verif Require Import ArrLib.
Import ListNotations.
Open Scope Z_scope.

(* the pixel of the image from which a pixel of the extended line stems *)
Definition src (m : mode) (n i : Z) : option Z :=
  if (0 <=? i) && (i <? n) then Some i
  else match m with
       | Background => None
       | Edge => if i <? 0 then Some 0 else Some (n - 1)
       | Repeat => Some (i mod n)
       end.

Lemma extend_src {A} m n (bg : A) line i :
  extend m n bg line i = match src m n i with Some j => line j | None => bg end.
Proof.
  unfold extend, src. destruct ((0 <=? i) && (i <? n)); [reflexivity|]. destruct m; try reflexivity.
  destruct (i <? 0); reflexivity.
Qed.

Lemma src_in m n i : 0 <= i < n -> src m n i = Some i.
Proof. intros H. unfold src. replace ((0 <=? i) && (i <? n)) with true by (symmetry; rewrite andb_true_iff; lia). reflexivity. Qed.

Lemma src_bg n i : ~ 0 <= i < n -> src Background n i = None.
Proof. intros H. unfold src. replace ((0 <=? i) && (i <? n)) with false by (symmetry; rewrite andb_false_iff; lia). reflexivity. Qed.

Lemma src_low n i : 0 < n -> i <= 0 -> src Edge n i = Some 0.
Proof.
  intros Hn H. unfold src. destruct ((0 <=? i) && (i <? n)) eqn:E.
  - f_equal. lia.
  - destruct (i <? 0) eqn:E1; [reflexivity|]. apply andb_false_iff in E. lia.
Qed.

Lemma src_high n i : 0 < n -> n - 1 <= i -> src Edge n i = Some (n - 1).
Proof.
  intros Hn H. unfold src. destruct ((0 <=? i) && (i <? n)) eqn:E.
  - f_equal. lia.
  - destruct (i <? 0) eqn:E1; [|reflexivity]. lia.
Qed.

Lemma src_repeat n i : 0 < n -> src Repeat n i = Some (i mod n).
Proof.
  intros Hn. unfold src. destruct ((0 <=? i) && (i <? n)) eqn:E; [|reflexivity].
  apply andb_true_iff in E. rewrite Z.mod_small by lia. reflexivity.
Qed.

Lemma src_period n i k : 0 < n -> src Repeat n (i + k * n) = src Repeat n i.
Proof. intros Hn. rewrite !src_repeat by assumption. now rewrite Z_mod_plus_full. Qed.

(* what adjust gives; a is the position of the progenitor relative to the read box *)
Record adjusted (m : mode) (n p W rp gp gs : Z) : Prop := {
  ad_rp : - 2 ^ 31 <= rp < 2 ^ 31;
  ad_gp : 0 <= gp < n;
  ad_gs : 0 < gs <= n;
  ad_lo : rp <= gp;
  ad_hi : gp - rp + gs <= W;
  ad_src : forall x, 0 <= x < W -> src m n (p + x) = src m n (rp + x);
  ad_single : m <> Repeat -> gp + gs <= n;
  ad_bg : m = Background -> forall x, 0 <= x < W -> ~ gp - rp <= x < gp - rp + gs -> src m n (rp + x) = None;
  ad_edge_lo : m = Edge -> forall x, 0 <= x < gp - rp -> src m n (rp + x) = src m n gp;
  ad_edge_hi : m = Edge -> forall x, gp - rp + gs <= x < W -> src m n (rp + x) = src m n (gp + gs - 1);
  ad_rep_lo : m = Repeat -> 0 < gp - rp -> gs = n /\ gp - rp <= gs;
  ad_rep_hi : m = Repeat -> gp - rp + gs < W -> gs = n
}.

Lemma adjust_ok m n p W : 0 < n < 2 ^ 31 -> 0 < W < 2 ^ 31 -> - 2 ^ 31 <= p < 2 ^ 31 ->
  exists r, adjust m n p W = Some r /\
    match r with
    | None => m = Background /\ forall x, 0 <= x < W -> src m n (p + x) = None
    | Some (rp, gp, gs) => adjusted m n p W rp gp gs
    end.
Proof.
  intros Hn HW Hp. unfold adjust, assert.
  replace (0 <? n) with true by lia. replace (0 <? W) with true by lia. cbn [obind].
  rewrite (isub_ok 0 W) by lia. cbn [obind].
  assert (Hhi : forall i j, n - 1 <= i -> n - 1 <= j -> src Edge n i = src Edge n j)
    by (intros; rewrite !src_high by lia; reflexivity).
  assert (Hlo : forall i j, i <= 0 -> j <= 0 -> src Edge n i = src Edge n j)
    by (intros; rewrite !src_low by lia; reflexivity).
  destruct m.
  - destruct (0 <=? p) eqn:E1.
    + destruct (p <? n) eqn:E2.
      * rewrite isub_ok by lia. cbn [obind].
        destruct (W <=? n - p) eqn:E3; (eexists; split; [reflexivity|]);
          constructor; try congruence; try lia; intros; try reflexivity; apply src_bg; lia.
      * eexists. split; [reflexivity|]. split; [reflexivity|]. intros x Hx. apply src_bg. lia.
    + destruct (0 - W <? p) eqn:E2.
      * rewrite iadd_ok by lia. cbn [obind].
        destruct (p + W <=? n) eqn:E3; (eexists; split; [reflexivity|]);
          constructor; try congruence; try lia; intros; try reflexivity; apply src_bg; lia.
      * eexists. split; [reflexivity|]. split; [reflexivity|]. intros x Hx. apply src_bg. lia.
  - destruct (0 <=? p) eqn:E1.
    + destruct (p <? n) eqn:E2.
      * rewrite isub_ok by lia. cbn [obind].
        destruct (W <=? n - p) eqn:E3; (eexists; split; [reflexivity|]);
          constructor; try congruence; try lia; intros; try reflexivity; (apply Hhi; lia) || (apply Hlo; lia).
      * rewrite isub_ok by lia. cbn [obind].
        eexists. split; [reflexivity|].
        constructor; try congruence; try lia; intros; (apply Hhi; lia) || (apply Hlo; lia).
    + destruct (0 - W <? p) eqn:E2.
      * rewrite iadd_ok by lia. cbn [obind].
        destruct (p + W <=? n) eqn:E3; (eexists; split; [reflexivity|]);
          constructor; try congruence; try lia; intros; try reflexivity; (apply Hhi; lia) || (apply Hlo; lia).
      * rewrite isub_ok by lia. cbn [obind].
        eexists. split; [reflexivity|].
        constructor; try congruence; try lia; intros; (apply Hhi; lia) || (apply Hlo; lia).
  - rewrite int_periodic_mod_spec.
    2-3: unfold ity_ok, t_int; cbn; lia.
    2-3: unfold in_range, imin, imax, t_int; cbn; lia.
    2: lia.
    cbn [obind]. pose proof (Z.mod_pos_bound p n) as Hr. pose proof (Z.div_mod p n) as Hd.
    assert (Hsrc : forall x, src Repeat n (p + x) = src Repeat n (p mod n + x)).
    { intros x. rewrite <- (src_period n (p mod n + x) (p / n)) by lia. f_equal. lia. }
    set (r := p mod n) in *. rewrite isub_ok by lia. cbn [obind].
    destruct (W <=? n - r) eqn:E1.
    + eexists. split; [reflexivity|]. constructor; try congruence; try lia; auto.
    + rewrite isub_ok by lia. cbn [obind]. destruct (n <=? W - (n - r)) eqn:E2.
      * rewrite isub_ok by lia. cbn [obind]. eexists. split; [reflexivity|]. constructor; try congruence; try lia.
        intros x Hx. rewrite Hsrc. rewrite <- (src_period n (r - n + x) 1) by lia. f_equal. lia.
      * eexists. split; [reflexivity|]. constructor; try congruence; try lia; auto.
Qed.

Section Expand.
Context {P : Type} (c0 : canvas P) (t : tray) (F : Z -> Z -> P).
Hypothesis Ht : tray_ok c0 t.
Variables (gw gh ax ay : Z).
Hypothesis Hgw : 0 < gw.
Hypothesis Hgh : 0 < gh.
Hypothesis Hax : 0 <= ax.
Hypothesis Hay : 0 <= ay.
Hypothesis Hw : ax + gw <= width (tsize t).
Hypothesis Hh : ay + gh <= height (tsize t).

Ltac bounds := destruct Ht as (((?B1 & ?B2) & (?B3 & ?B4)) & ?B5 & ?B6 & ?B7 & ?B8).

Definition in_row (y : Z) : Prop := ay <= y < ay + gh.
Definition in_col (x : Z) : Prop := ax <= x < ax + gw.

Lemma repeat_horz_ok n fuel : forall rx c,
  (forall x y, 0 <= x -> x + n < width (tsize t) -> F (x + n) y = F x y) -> gw = n ->
  ax + gw <= rx <= width (tsize t) -> (exists k, rx = ax + k * n) ->
  (Z.to_nat (width (tsize t) - rx) < fuel)%nat ->
  good c0 t F (fun x y => x < rx /\ in_row y) c ->
  exists rx' c', repeat_horz fuel t rx ay (Size gw gh) (tx t + ax) (ty t + ay) c = Some (rx', c') /\
    rx <= rx' <= width (tsize t) /\ width (tsize t) - rx' < gw /\ (exists k, rx' = ax + k * n) /\
    good c0 t F (fun x y => x < rx' /\ in_row y) c'.
Proof.
  induction fuel as [|fuel IH]; intros rx c HF Hn Hrx Hk Hfu Hg; [lia|].
  bounds. cbn [repeat_horz]. cbn [width]. rewrite isub_ok by lia. cbn [obind].
  destruct (gw <=? width (tsize t) - rx) eqn:E.
  - rewrite subtray_ok by (cbn [px py bpos]; lia). cbn [obind px py bpos bsize]. rewrite !Z.sub_0_r.
    destruct Hk as [k Hk].
    assert (HFk : forall j, forall x y, 0 <= x -> 0 <= j -> x + j * n < width (tsize t) -> F (x + j * n) y = F x y).
    { intros j x y Hx Hj. revert x Hx. pattern j. apply natlike_ind; [| |exact Hj].
      - intros x Hx _. f_equal. lia.
      - intros j' Hj' IHj x Hx Hb. replace (x + Z.succ j' * n) with ((x + j' * n) + n) by lia.
        rewrite HF by nia. apply IHj; nia. }
    destruct (step_copy c0 t F Ht c (fun x y => x < rx /\ in_row y) (fun x y => x < rx + gw /\ in_row y)
      rx ay (Size gw gh) ax ay Hg) as (c' & Ec & Hg'); cbn [width height]; unfold in_row in *; try lia.
    + intros x y Hx Hy. split; [cbn beta; lia|]. replace (rx + x) with ((ax + x) + k * n) by lia.
      rewrite HFk; [reflexivity|lia|nia|lia].
    + rewrite Ec. cbn [obind width]. rewrite iadd_ok by lia. cbn [obind].
      destruct (IH (rx + gw) c') as (rx' & c2 & E2 & H1 & H2 & H3 & H4); auto; try lia.
      * exists (k + 1). lia.
      * exists rx', c2. split; [exact E2|]. split; [cbn beta; lia|]. auto.
  - exists rx, c. split; [reflexivity|]. split; [cbn beta; lia|]. split; [lia|]. auto.
Qed.

Lemma expand_horz_ok m n bg c :
  (m = Background -> forall x y, 0 <= x < width (tsize t) -> ~ in_col x -> F x y = bg) ->
  (m = Edge -> forall x y, 0 <= x < ax -> F x y = F ax y) ->
  (m = Edge -> forall x y, ax + gw <= x < width (tsize t) -> F x y = F (ax + gw - 1) y) ->
  (m = Repeat -> forall x y, 0 <= x -> x + n < width (tsize t) -> F (x + n) y = F x y) ->
  (m = Repeat -> 0 < ax -> gw = n /\ ax <= gw) ->
  (m = Repeat -> ax + gw < width (tsize t) -> gw = n) ->
  good c0 t F (fun x y => in_col x /\ in_row y) c ->
  exists c', expand_horz m n bg t (Size gw gh) ax ay (ax + gw) c = Some c' /\
    good c0 t F (fun x y => in_row y) c'.
Proof.
  intros Hbg Hel Heh Hrep Hrl Hrh Hg. bounds. unfold expand_horz, assert, in_col, in_row in *.
  cbn [width height] in *.
  destruct m.
  - assert (E1 : exists c', (if 0 <? ax then bgcolor_fill t bg (Pos 0 ay) (Size ax gh) c else Some c) = Some c' /\
      good c0 t F (fun x y => x < ax + gw /\ ay <= y < ay + gh) c').
    { destruct (0 <? ax) eqn:E.
      - apply (step_fill c0 t F Ht c (fun x y => ax <= x < ax + gw /\ ay <= y < ay + gh)); cbn [width height]; try lia.
        + assumption.
        + intros x y Hx Hy. symmetry. apply Hbg; [reflexivity|lia|lia].
      - exists c. split; [reflexivity|]. eapply good_weaken; [exact Hg|]. cbn beta; intros; lia. }
    destruct E1 as (c1 & E1 & Hg1). rewrite E1. cbn [obind].
    destruct (ax + gw <? width (tsize t)) eqn:E.
    + rewrite isub_ok by lia. cbn [obind].
      apply (step_fill c0 t F Ht c1 (fun x y => x < ax + gw /\ ay <= y < ay + gh)); cbn [width height]; try lia.
      * assumption.
      * intros x y Hx Hy. symmetry. apply Hbg; [reflexivity|lia|lia].
    + exists c1. split; [reflexivity|]. eapply good_weaken; [exact Hg1|]. cbn beta; intros; lia.
  - assert (E1 : exists c', (if 0 <? ax then
        let? _ := (if 1 <=? gw then Some tt else None) in
        loop (Z.to_nat ax) 0 (fun i c =>
          let? q := pos_add (Pos 0 ay) (Size i 0) in
          let? u := subtray t (Box q (Size 1 gh)) (Pos 0 0) in
          copy_from u (tx t + ax) (ty t + ay) c) c
      else Some c) = Some c' /\
      good c0 t F (fun x y => x < ax + gw /\ ay <= y < ay + gh) c').
    { destruct (0 <? ax) eqn:E.
      - replace (1 <=? gw) with true by lia. cbn [obind].
        destruct (loop_inv (fun i c => good c0 t F (fun x y => (x < i \/ ax <= x < ax + gw) /\ ay <= y < ay + gh) c)
          (fun i c =>
            let? q := pos_add (Pos 0 ay) (Size i 0) in
            let? u := subtray t (Box q (Size 1 gh)) (Pos 0 0) in
            copy_from u (tx t + ax) (ty t + ay) c) (Z.to_nat ax) 0 c) as (c' & Ec & Hc).
        + eapply good_weaken; [exact Hg|]. cbn beta; intros; lia.
        + intros i c' Hi Hg'. unfold pos_add. cbn [px py width height]. rewrite !iadd_ok by lia. cbn [obind].
          rewrite subtray_ok by (cbn [px py bpos]; lia). cbn [obind px py bpos bsize]. rewrite !Z.sub_0_r, Z.add_0_l, Z.add_0_r.
          apply (step_copy c0 t F Ht c' (fun x y => (x < i \/ ax <= x < ax + gw) /\ ay <= y < ay + gh));
            cbn [width height]; try lia; try assumption.
          intros x y Hx Hy. split; [cbn beta; lia|]. replace x with 0 by lia. rewrite !Z.add_0_r. symmetry. apply Hel; [reflexivity|lia].
        + exists c'. split; [exact Ec|]. eapply good_weaken; [exact Hc|]. cbn beta; intros; lia.
      - exists c. split; [reflexivity|]. eapply good_weaken; [exact Hg|]. cbn beta; intros; lia. }
    destruct E1 as (c1 & E1 & Hg1). rewrite E1. cbn [obind].
    destruct (ax + gw <? width (tsize t)) eqn:E.
    + replace (1 <=? gw) with true by lia. cbn [obind]. rewrite isub_ok by lia. cbn [obind].
      rewrite iadd_ok by lia. cbn [obind]. rewrite isub_ok by lia. cbn [obind].
      destruct (loop_inv (fun i c => good c0 t F (fun x y => x < ax + gw + i /\ ay <= y < ay + gh) c)
        (fun i c =>
          let? q := pos_add (Pos (ax + gw) ay) (Size i 0) in
          let? u := subtray t (Box q (Size 1 gh)) (Pos 0 0) in
          copy_from u (tx t + (ax + (gw - 1))) (ty t + ay) c) (Z.to_nat (width (tsize t) - (ax + gw))) 0 c1) as (c' & Ec & Hc).
      * eapply good_weaken; [exact Hg1|]. cbn beta; intros; lia.
      * intros i c' Hi Hg'. unfold pos_add. cbn [px py width height]. rewrite !iadd_ok by lia. cbn [obind].
        rewrite subtray_ok by (cbn [px py bpos]; lia). cbn [obind px py bpos bsize]. rewrite !Z.sub_0_r, Z.add_0_r.
        apply (step_copy c0 t F Ht c' (fun x y => x < ax + gw + i /\ ay <= y < ay + gh));
          cbn [width height]; try lia; try assumption.
        intros x y Hx Hy. split; [cbn beta; lia|]. rewrite (Heh eq_refl (ax + gw + i + x)) by lia. f_equal; lia.
      * exists c'. split; [exact Ec|]. eapply good_weaken; [exact Hc|]. cbn beta; intros; lia.
    + exists c1. split; [reflexivity|]. eapply good_weaken; [exact Hg1|]. cbn beta; intros; lia.
  - assert (E1 : exists c', (if 0 <? ax then
        let? _ := (if gw =? n then Some tt else None) in
        let? u := subtray t (Box (Pos 0 ay) (Size ax gh)) (Pos 0 0) in
        copy_from u (tx t + gw) (ty t + ay) c
      else Some c) = Some c' /\
      good c0 t F (fun x y => x < ax + gw /\ ay <= y < ay + gh) c').
    { destruct (0 <? ax) eqn:E.
      - destruct (Hrl eq_refl) as [H1 H2]; [lia|]. replace (gw =? n) with true by lia. cbn [obind].
        rewrite subtray_ok by (cbn [px py bpos]; lia). cbn [obind px py bpos bsize]. rewrite !Z.sub_0_r.
        apply (step_copy c0 t F Ht c (fun x y => ax <= x < ax + gw /\ ay <= y < ay + gh)); cbn [width height]; try lia; try assumption.
        intros x y Hx Hy. split; [cbn beta; lia|]. rewrite <- (Hrep eq_refl (0 + x)) by lia. f_equal; lia.
      - exists c. split; [reflexivity|]. eapply good_weaken; [exact Hg|]. cbn beta; intros; lia. }
    destruct E1 as (c1 & E1 & Hg1). rewrite E1. cbn [obind].
    destruct (ax + gw <? width (tsize t)) eqn:E.
    + pose proof (Hrh eq_refl ltac:(lia)) as Hn. replace (gw =? n) with true by lia. cbn [obind].
      destruct (repeat_horz_ok n (S (Z.to_nat (width (tsize t)))) (ax + gw) c1) as (rx & c2 & E2 & H1 & H2 & (k & Hk) & Hg2); auto.
      * lia.
      * exists 1. lia.
      * lia.
      * rewrite E2. cbn [obind]. rewrite isub_ok by lia. cbn [obind].
        rewrite subtray_ok by (cbn [px py bpos]; lia). cbn [obind px py bpos bsize]. rewrite !Z.sub_0_r.
        unfold in_row in Hg2.
        apply (step_copy c0 t F Ht c2 (fun x y => x < rx /\ ay <= y < ay + gh)); cbn [width height]; try lia; try assumption.
        intros x y Hx Hy. split; [lia|].
        replace (rx + x) with ((ax + x) + k * n) by lia.
        assert (Hk0 : 0 <= k) by nia.
        assert (HFk : forall j, 0 <= j -> forall x y, 0 <= x -> x + j * n < width (tsize t) -> F (x + j * n) y = F x y).
        { intros j Hj. pattern j. apply natlike_ind; [| |exact Hj].
          - intros x' y' Hx' _. f_equal. lia.
          - intros j' Hj' IHj x' y' Hx' Hb. replace (x' + Z.succ j' * n) with ((x' + j' * n) + n) by lia.
            rewrite (Hrep eq_refl) by nia. apply IHj; nia. }
        rewrite HFk by lia. reflexivity.
    + exists c1. split; [reflexivity|]. eapply good_weaken; [exact Hg1|]. cbn beta; intros; lia.
Qed.

Lemma repeat_vert_ok n fuel : forall ry c,
  (forall x y, 0 <= y -> y + n < height (tsize t) -> F x (y + n) = F x y) -> gh = n ->
  ay + gh <= ry <= height (tsize t) -> (exists k, ry = ay + k * n) ->
  (Z.to_nat (height (tsize t) - ry) < fuel)%nat ->
  good c0 t F (fun x y => y < ry) c ->
  exists ry' c', repeat_vert fuel t 0 ry gh (tx t) (ty t + ay) c = Some (ry', c') /\
    ry <= ry' <= height (tsize t) /\ height (tsize t) - ry' < gh /\ (exists k, ry' = ay + k * n) /\
    good c0 t F (fun x y => y < ry') c'.
Proof.
  induction fuel as [|fuel IH]; intros ry c HF Hn Hry Hk Hfu Hg; [lia|].
  bounds. cbn [repeat_vert]. rewrite isub_ok by lia. cbn [obind].
  destruct (gh <=? height (tsize t) - ry) eqn:E.
  - rewrite subtray_ok by (cbn [px py bpos]; lia). cbn [obind px py bpos bsize]. rewrite !Z.sub_0_r.
    destruct Hk as [k Hk].
    assert (HFk : forall j, 0 <= j -> forall x y, 0 <= y -> y + j * n < height (tsize t) -> F x (y + j * n) = F x y).
    { intros j Hj. pattern j. apply natlike_ind; [| |exact Hj].
      - intros x' y' Hx' _. f_equal. lia.
      - intros j' Hj' IHj x' y' Hx' Hb. replace (y' + Z.succ j' * n) with ((y' + j' * n) + n) by lia.
        rewrite HF by nia. apply IHj; nia. }
    destruct (step_copy c0 t F Ht c (fun x y => y < ry) (fun x y => y < ry + gh)
      0 ry (Size (width (tsize t)) gh) 0 ay Hg) as (c' & Ec & Hg'); cbn [width height]; try lia.
    + intros x y Hx Hy. split; [cbn beta; lia|]. replace (ry + y) with ((ay + y) + k * n) by lia.
      rewrite HFk; [reflexivity|nia|lia|lia].
    + rewrite !Z.add_0_r in Ec. rewrite Z.add_0_r, Ec. cbn [obind]. rewrite iadd_ok by lia. cbn [obind].
      destruct (IH (ry + gh) c') as (ry' & c2 & E2 & H1 & H2 & H3 & H4); auto; try lia.
      * exists (k + 1). lia.
      * exists ry', c2. split; [exact E2|]. split; [cbn beta; lia|]. auto.
  - exists ry, c. split; [reflexivity|]. split; [cbn beta; lia|]. split; [lia|]. auto.
Qed.

Lemma expand_vert_ok m n bg c :
  (m = Background -> forall x y, 0 <= y < height (tsize t) -> ~ in_row y -> F x y = bg) ->
  (m = Edge -> forall x y, 0 <= y < ay -> F x y = F x ay) ->
  (m = Edge -> forall x y, ay + gh <= y < height (tsize t) -> F x y = F x (ay + gh - 1)) ->
  (m = Repeat -> forall x y, 0 <= y -> y + n < height (tsize t) -> F x (y + n) = F x y) ->
  (m = Repeat -> 0 < ay -> gh = n /\ ay <= gh) ->
  (m = Repeat -> ay + gh < height (tsize t) -> gh = n) ->
  good c0 t F (fun x y => in_row y) c ->
  exists c', expand_vert m n bg t (Size gw gh) ay (ay + gh) c = Some c' /\
    good c0 t F (fun x y => True) c'.
Proof.
  intros Hbg Hel Heh Hrep Hrl Hrh Hg. bounds. unfold expand_vert, assert, in_row in *.
  cbn [width height] in *.
  destruct m.
  - assert (E1 : exists c', (if 0 <? ay then bgcolor_fill t bg (Pos 0 0) (Size (width (tsize t)) ay) c else Some c) = Some c' /\
      good c0 t F (fun x y => y < ay + gh) c').
    { destruct (0 <? ay) eqn:E.
      - apply (step_fill c0 t F Ht c (fun x y => ay <= y < ay + gh)); cbn [width height]; try lia.
        + assumption.
        + intros x y Hx Hy. symmetry. apply Hbg; [reflexivity|lia|lia].
      - exists c. split; [reflexivity|]. eapply good_weaken; [exact Hg|]. cbn beta; intros; lia. }
    destruct E1 as (c1 & E1 & Hg1). rewrite E1. cbn [obind].
    destruct (ay + gh <? height (tsize t)) eqn:E.
    + rewrite isub_ok by lia. cbn [obind].
      apply (step_fill c0 t F Ht c1 (fun x y => y < ay + gh)); cbn [width height]; try lia.
      * assumption.
      * intros x y Hx Hy. symmetry. apply Hbg; [reflexivity|lia|lia].
    + exists c1. split; [reflexivity|]. eapply good_weaken; [exact Hg1|]. cbn beta; intros; lia.
  - assert (E1 : exists c', (if 0 <? ay then
        let? _ := (if 1 <=? gh then Some tt else None) in
        loop (Z.to_nat ay) 0 (fun i c =>
          let? q := pos_add (Pos 0 0) (Size 0 i) in
          let? u := subtray t (Box q (Size (width (tsize t)) 1)) (Pos 0 0) in
          copy_from u (tx t) (ty t + ay) c) c
      else Some c) = Some c' /\
      good c0 t F (fun x y => y < ay + gh) c').
    { destruct (0 <? ay) eqn:E.
      - replace (1 <=? gh) with true by lia. cbn [obind].
        destruct (loop_inv (fun i c => good c0 t F (fun x y => y < i \/ ay <= y < ay + gh) c)
          (fun i c =>
            let? q := pos_add (Pos 0 0) (Size 0 i) in
            let? u := subtray t (Box q (Size (width (tsize t)) 1)) (Pos 0 0) in
            copy_from u (tx t) (ty t + ay) c) (Z.to_nat ay) 0 c) as (c' & Ec & Hc).
        + eapply good_weaken; [exact Hg|]. cbn beta; intros; lia.
        + intros i c' Hi Hg'. unfold pos_add. cbn [px py width height]. rewrite !iadd_ok by lia. cbn [obind].
          rewrite subtray_ok by (cbn [px py bpos]; lia). cbn [obind px py bpos bsize]. rewrite !Z.sub_0_r, Z.add_0_l.
          destruct (step_copy c0 t F Ht c' (fun x y => y < i \/ ay <= y < ay + gh) (fun x y => y < i + 1 \/ ay <= y < ay + gh)
            0 i (Size (width (tsize t)) 1) 0 ay Hg') as (c2 & Ec & Hg2); cbn [width height]; try lia.
          * intros x y Hx Hy. split; [cbn beta; lia|]. replace y with 0 by lia. rewrite !Z.add_0_r. symmetry. apply Hel; [reflexivity|lia].
          * exists c2. split; [|exact Hg2]. rewrite !Z.add_0_r in Ec. rewrite !Z.add_0_r. exact Ec.
        + exists c'. split; [exact Ec|]. eapply good_weaken; [exact Hc|]. cbn beta; intros; lia.
      - exists c. split; [reflexivity|]. eapply good_weaken; [exact Hg|]. cbn beta; intros; lia. }
    destruct E1 as (c1 & E1 & Hg1). rewrite E1. cbn [obind].
    destruct (ay + gh <? height (tsize t)) eqn:E.
    + replace (1 <=? gh) with true by lia. cbn [obind]. rewrite iadd_ok by lia. cbn [obind].
      rewrite isub_ok by lia. cbn [obind]. rewrite isub_ok by lia. cbn [obind].
      destruct (loop_inv (fun i c => good c0 t F (fun x y => y < ay + gh + i) c)
        (fun i c =>
          let? q := pos_add (Pos 0 (ay + gh)) (Size 0 i) in
          let? u := subtray t (Box q (Size (width (tsize t)) 1)) (Pos 0 0) in
          copy_from u (tx t) (ty t + (ay + gh - 1)) c) (Z.to_nat (height (tsize t) - (ay + gh))) 0 c1) as (c' & Ec & Hc).
      * eapply good_weaken; [exact Hg1|]. cbn beta; intros; lia.
      * intros i c' Hi Hg'. unfold pos_add. cbn [px py width height]. rewrite !iadd_ok by lia. cbn [obind].
        rewrite subtray_ok by (cbn [px py bpos]; lia). cbn [obind px py bpos bsize]. rewrite !Z.sub_0_r.
        destruct (step_copy c0 t F Ht c' (fun x y => y < ay + gh + i) (fun x y => y < ay + gh + (i + 1))
          0 (ay + gh + i) (Size (width (tsize t)) 1) 0 (ay + gh - 1) Hg') as (c2 & E2 & Hg2); cbn [width height]; try lia.
        -- intros x y Hx Hy. split; [cbn beta; lia|]. rewrite (Heh eq_refl _ (ay + gh + i + y)) by lia. f_equal; lia.
        -- exists c2. split; [|exact Hg2]. rewrite !Z.add_0_r in E2. rewrite !Z.add_0_r. exact E2.
      * exists c'. split; [exact Ec|]. eapply good_weaken; [exact Hc|]. cbn beta; intros; lia.
    + exists c1. split; [reflexivity|]. eapply good_weaken; [exact Hg1|]. cbn beta; intros; lia.
  - assert (E1 : exists c', (if 0 <? ay then
        let? _ := (if gh =? n then Some tt else None) in
        let? u := subtray t (Box (Pos 0 0) (Size (width (tsize t)) ay)) (Pos 0 0) in
        copy_from u (tx t) (ty t + gh) c
      else Some c) = Some c' /\
      good c0 t F (fun x y => y < ay + gh) c').
    { destruct (0 <? ay) eqn:E.
      - destruct (Hrl eq_refl) as [H1 H2]; [lia|]. replace (gh =? n) with true by lia. cbn [obind].
        rewrite subtray_ok by (cbn [px py bpos]; lia). cbn [obind px py bpos bsize]. rewrite !Z.sub_0_r.
        destruct (step_copy c0 t F Ht c (fun x y => ay <= y < ay + gh) (fun x y => y < ay + gh)
          0 0 (Size (width (tsize t)) ay) 0 gh Hg) as (c2 & E2 & Hg2); cbn [width height]; try lia.
        + intros x y Hx Hy. split; [cbn beta; lia|]. rewrite <- (Hrep eq_refl _ (0 + y)) by lia. f_equal; lia.
        + exists c2. split; [|exact Hg2]. rewrite !Z.add_0_r in E2. rewrite !Z.add_0_r. exact E2.
      - exists c. split; [reflexivity|]. eapply good_weaken; [exact Hg|]. cbn beta; intros; lia. }
    destruct E1 as (c1 & E1 & Hg1). rewrite E1. cbn [obind].
    destruct (ay + gh <? height (tsize t)) eqn:E.
    + pose proof (Hrh eq_refl ltac:(lia)) as Hn. replace (gh =? n) with true by lia. cbn [obind].
      destruct (repeat_vert_ok n (S (Z.to_nat (height (tsize t)))) (ay + gh) c1) as (ry & c2 & E2 & H1 & H2 & (k & Hk) & Hg2); auto.
      * lia.
      * exists 1. lia.
      * lia.
      * rewrite E2. cbn [obind]. rewrite isub_ok by lia. cbn [obind].
        rewrite subtray_ok by (cbn [px py bpos]; lia). cbn [obind px py bpos bsize]. rewrite !Z.sub_0_r.
        destruct (step_copy c0 t F Ht c2 (fun x y => y < ry) (fun _ _ => True)
          0 ry (Size (width (tsize t)) (height (tsize t) - ry)) 0 ay Hg2) as (c3 & E3 & Hg3); cbn [width height]; try lia.
        -- intros x y Hx Hy. split; [lia|].
           replace (ry + y) with ((ay + y) + k * n) by lia.
           assert (Hk0 : 0 <= k) by nia.
           assert (HFk : forall j, 0 <= j -> forall x y, 0 <= y -> y + j * n < height (tsize t) -> F x (y + j * n) = F x y).
           { intros j Hj. pattern j. apply natlike_ind; [| |exact Hj].
             - intros x' y' Hx' _. f_equal. lia.
             - intros j' Hj' IHj x' y' Hx' Hb. replace (y' + Z.succ j' * n) with ((y' + j' * n) + n) by lia.
               rewrite (Hrep eq_refl) by nia. apply IHj; nia. }
           rewrite HFk by lia. reflexivity.
        -- exists c3. split; [|exact Hg3]. rewrite !Z.add_0_r in E3. rewrite !Z.add_0_r. exact E3.
    + exists c1. split; [reflexivity|]. eapply good_weaken; [exact Hg1|]. cbn beta; intros; lia.
Qed.

End Expand.
