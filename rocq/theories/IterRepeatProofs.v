(* Lemmas on the repetition of a pattern *)
From Coq Require Import ZArith Bool List Lia.
From Verif Require Import CInt IntModel PixelBoxModel PixelBoxSpec PixelBoxProps.
From Verif Require Import FalloffModel FalloffSpec FalloffProofs FalloffProofs2 FalloffProofs3 IterRepeatModel IterRepeatSpec.
From Verif Require Import ArrLib.
Open Scope Z_scope.

Section Rep.
Context {P : Type} (c0 : canvas P) (t : tray) (F : Z -> Z -> P).
Hypothesis Ht : tray_ok c0 t.
(* the pattern, relative to the tray *)
Variables (ax ay pw ph : Z).
Hypothesis Hpw : 0 <= pw.
Hypothesis Hph : 0 <= ph.
Hypothesis Hax : 0 <= ax.
Hypothesis Hay : 0 <= ay.
Hypothesis Hw : ax + pw <= width (tsize t).
Hypothesis Hh : ay + ph <= height (tsize t).
Variable G : Z -> Z -> Prop.
Hypothesis HG : forall x y, ax <= x < ax + pw -> ay <= y < ay + ph -> G x y.
Hypothesis HFx : forall x y k, F (x + k * pw) y = F x y.

Ltac bounds := destruct Ht as (((?B1 & ?B2) & (?B3 & ?B4)) & ?B5 & ?B6 & ?B7 & ?B8).

Lemma left_loop n fuel : 0 < pw -> 0 <= n <= ax -> forall offset c, 0 <= offset <= n -> (exists k, offset = k * pw) ->
  (Z.to_nat (n - offset) < fuel)%nat ->
  good c0 t F (fun x y => G x y \/ (ax - offset <= x < ax /\ ay <= y < ay + ph)) c ->
  exists offset' c', repeat_loop fuel (-1) 0 pw n offset (tx t + ax) (ty t + ay) (Size pw ph) c = Some (offset', c') /\
    0 <= offset' <= n /\ n - offset' < pw /\ (exists k, offset' = k * pw) /\
    good c0 t F (fun x y => G x y \/ (ax - offset' <= x < ax /\ ay <= y < ay + ph)) c'.
Proof.
  intros Hpos Hn. bounds. induction fuel as [|fuel IH]; intros offset c Ho (k & Hk) Hf Hg; [lia|].
  cbn [repeat_loop]. rewrite isub_ok by lia. cbn [obind]. destruct (pw <=? n - offset) eqn:E.
  - rewrite iadd_ok by lia. cbn [obind]. unfold copy_to.
    replace (tx t + ax + -1 * (offset + pw)) with (tx t + (ax - (offset + pw))) by lia.
    replace (ty t + ay + 0 * (offset + pw)) with (ty t + ay) by lia.
    destruct (step_copy c0 t F Ht c (fun x y => G x y \/ (ax - offset <= x < ax /\ ay <= y < ay + ph))
      (fun x y => G x y \/ (ax - (offset + pw) <= x < ax /\ ay <= y < ay + ph))
      (ax - (offset + pw)) ay (Size pw ph) ax ay Hg) as (c1 & E1 & Hg1); cbn [width height]; try lia.
    + intros x y Hx Hy. split; [left; apply HG; lia|].
      rewrite <- (HFx (ax - (offset + pw) + x) (ay + y) (k + 1)). f_equal; lia.
    + intros x y Hx Hy [Hg'|Hg']; [tauto|]. destruct (Z_le_dec (ax - offset) x); [left; right; lia|right; lia].
    + rewrite E1. cbn [obind].
      destruct (IH (offset + pw) c1) as (o & c2 & E2 & H1 & H2 & H3 & H4); try lia; [exists (k + 1); lia|exact Hg1|].
      exists o, c2. auto.
  - exists offset, c. split; [reflexivity|]. split; [lia|]. split; [lia|]. split; [eauto|assumption].
Qed.

Lemma right_loop n fuel : 0 < pw -> 0 <= n -> ax + pw + n <= width (tsize t) ->
  forall offset c, 0 <= offset <= n -> (exists k, offset = k * pw) ->
  (Z.to_nat (n - offset) < fuel)%nat ->
  good c0 t F (fun x y => G x y \/ (ax + pw <= x < ax + pw + offset /\ ay <= y < ay + ph)) c ->
  exists offset' c', repeat_loop fuel 1 0 pw n offset (tx t + ax) (ty t + ay) (Size pw ph) c = Some (offset', c') /\
    0 <= offset' <= n /\ n - offset' < pw /\ (exists k, offset' = k * pw) /\
    good c0 t F (fun x y => G x y \/ (ax + pw <= x < ax + pw + offset' /\ ay <= y < ay + ph)) c'.
Proof.
  intros Hpos Hn Hn2. bounds. induction fuel as [|fuel IH]; intros offset c Ho (k & Hk) Hf Hg; [lia|].
  cbn [repeat_loop]. rewrite isub_ok by lia. cbn [obind]. destruct (pw <=? n - offset) eqn:E.
  - rewrite iadd_ok by lia. cbn [obind]. unfold copy_to.
    replace (tx t + ax + 1 * (offset + pw)) with (tx t + (ax + (offset + pw))) by lia.
    replace (ty t + ay + 0 * (offset + pw)) with (ty t + ay) by lia.
    destruct (step_copy c0 t F Ht c (fun x y => G x y \/ (ax + pw <= x < ax + pw + offset /\ ay <= y < ay + ph))
      (fun x y => G x y \/ (ax + pw <= x < ax + pw + (offset + pw) /\ ay <= y < ay + ph))
      (ax + (offset + pw)) ay (Size pw ph) ax ay Hg) as (c1 & E1 & Hg1); cbn [width height]; try lia.
    + intros x y Hx Hy. split; [left; apply HG; lia|].
      rewrite <- (HFx (ax + x) (ay + y) (k + 1)). f_equal; lia.
    + intros x y Hx Hy [Hg'|Hg']; [tauto|]. destruct (Z_lt_dec x (ax + pw + offset)); [left; right; lia|right; lia].
    + rewrite E1. cbn [obind].
      destruct (IH (offset + pw) c1) as (o & c2 & E2 & H1 & H2 & H3 & H4); try lia; [exists (k + 1); lia|exact Hg1|].
      exists o, c2. auto.
  - exists offset, c. split; [reflexivity|]. split; [lia|]. split; [lia|]. split; [eauto|assumption].
Qed.

Variables (ix iy : Z) (p : pos).
Hypothesis Hp : int_pos p.
Hypothesis Hix : ix + px p = tx t + ax.
Hypothesis Hiy : iy + py p = ty t + ay.

Lemma left_ok n c : 0 < pw -> 0 <= n <= ax -> good c0 t F G c ->
  exists c', repeat_left ix iy (Box p (Size pw ph)) n c = Some c' /\
    good c0 t F (fun x y => G x y \/ (ax - n <= x < ax /\ ay <= y < ay + ph)) c'.
Proof.
  intros Hpos Hn Hg. bounds. destruct Hp as ((P1 & P2) & (P3 & P4)). unfold repeat_left. cbn [bpos bsize width height].
  replace (0 <? pw) with true by lia. replace (0 <=? n) with true by lia. cbn [assert obind].
  unfold pos_diff. cbn [px py]. rewrite !isub_ok by lia. cbn [obind width height].
  rewrite !Z.sub_0_r, Hix, Hiy.
  destruct (left_loop n (S (Z.to_nat n)) Hpos Hn 0 c) as (o & c1 & E1 & H1 & H2 & (k & Hk) & Hg1); try lia.
  { exists 0. lia. } { eapply good_weaken; [exact Hg|]. cbn beta. intros x y _ _ [?|?]; [assumption|lia]. }
  rewrite E1. cbn [obind]. rewrite isub_ok by lia. cbn [obind]. rewrite isub_ok by lia. cbn [obind]. unfold copy_to.
  replace (tx t + ax - n) with (tx t + (ax - n)) by lia. rewrite <- Z.add_assoc.
  apply (step_copy c0 t F Ht c1 (fun x y => G x y \/ (ax - o <= x < ax /\ ay <= y < ay + ph)));
    cbn [width height]; try lia; [exact Hg1| |].
  - intros x y Hx Hy. split; [left; apply HG; lia|].
    rewrite <- (HFx (ax - n + x) (ay + y) (k + 1)). f_equal; lia.
  - intros x y Hx Hy [?|?]; [tauto|]. destruct (Z_le_dec (ax - o) x); [left; right; lia|right; lia].
Qed.

Lemma right_ok n c : 0 < pw -> 0 <= n -> ax + pw + n <= width (tsize t) -> good c0 t F G c ->
  exists c', repeat_right ix iy (Box p (Size pw ph)) n c = Some c' /\
    good c0 t F (fun x y => G x y \/ (ax + pw <= x < ax + pw + n /\ ay <= y < ay + ph)) c'.
Proof.
  intros Hpos Hn Hn2 Hg. bounds. destruct Hp as ((P1 & P2) & (P3 & P4)). unfold repeat_right. cbn [bpos bsize width height].
  replace (0 <? pw) with true by lia. replace (0 <=? n) with true by lia. cbn [assert obind].
  unfold pos_diff. cbn [px py]. rewrite !isub_ok by lia. cbn [obind width height].
  rewrite !Z.sub_0_r, Hix, Hiy.
  destruct (right_loop n (S (Z.to_nat n)) Hpos Hn Hn2 0 c) as (o & c1 & E1 & H1 & H2 & (k & Hk) & Hg1); try lia.
  { exists 0. lia. } { eapply good_weaken; [exact Hg|]. cbn beta. intros x y _ _ [?|?]; [assumption|lia]. }
  rewrite E1. cbn [obind]. rewrite isub_ok by lia. cbn [obind]. rewrite iadd_ok by lia. cbn [obind]. unfold copy_to.
  replace (tx t + ax + (o + pw)) with (tx t + (ax + (o + pw))) by lia.
  apply (step_copy c0 t F Ht c1 (fun x y => G x y \/ (ax + pw <= x < ax + pw + o /\ ay <= y < ay + ph)));
    cbn [width height]; try lia; [exact Hg1| |].
  - intros x y Hx Hy. split; [left; apply HG; lia|].
    rewrite <- (HFx (ax + x) (ay + y) (k + 1)). f_equal; lia.
  - intros x y Hx Hy [?|?]; [tauto|]. destruct (Z_lt_dec x (ax + pw + o)); [left; right; lia|right; lia].
Qed.

End Rep.

Section RepV.
Context {P : Type} (c0 : canvas P) (t : tray) (F : Z -> Z -> P).
Hypothesis Ht : tray_ok c0 t.
Variables (ax ay pw ph : Z).
Hypothesis Hpw : 0 <= pw.
Hypothesis Hph : 0 <= ph.
Hypothesis Hax : 0 <= ax.
Hypothesis Hay : 0 <= ay.
Hypothesis Hw : ax + pw <= width (tsize t).
Hypothesis Hh : ay + ph <= height (tsize t).
Variable G : Z -> Z -> Prop.
Hypothesis HG : forall x y, ax <= x < ax + pw -> ay <= y < ay + ph -> G x y.
Hypothesis HFy : forall x y k, F x (y + k * ph) = F x y.

Ltac bounds := destruct Ht as (((?B1 & ?B2) & (?B3 & ?B4)) & ?B5 & ?B6 & ?B7 & ?B8).

Lemma up_loop n fuel : 0 < ph -> 0 <= n <= ay -> forall offset c, 0 <= offset <= n -> (exists k, offset = k * ph) ->
  (Z.to_nat (n - offset) < fuel)%nat ->
  good c0 t F (fun x y => G x y \/ (ax <= x < ax + pw /\ ay - offset <= y < ay)) c ->
  exists offset' c', repeat_loop fuel 0 (-1) ph n offset (tx t + ax) (ty t + ay) (Size pw ph) c = Some (offset', c') /\
    0 <= offset' <= n /\ n - offset' < ph /\ (exists k, offset' = k * ph) /\
    good c0 t F (fun x y => G x y \/ (ax <= x < ax + pw /\ ay - offset' <= y < ay)) c'.
Proof.
  intros Hpos Hn. bounds. induction fuel as [|fuel IH]; intros offset c Ho (k & Hk) Hf Hg; [lia|].
  cbn [repeat_loop]. rewrite isub_ok by lia. cbn [obind]. destruct (ph <=? n - offset) eqn:E.
  - rewrite iadd_ok by lia. cbn [obind]. unfold copy_to.
    replace (ty t + ay + -1 * (offset + ph)) with (ty t + (ay - (offset + ph))) by lia.
    replace (tx t + ax + 0 * (offset + ph)) with (tx t + ax) by lia.
    destruct (step_copy c0 t F Ht c (fun x y => G x y \/ (ax <= x < ax + pw /\ ay - offset <= y < ay))
      (fun x y => G x y \/ (ax <= x < ax + pw /\ ay - (offset + ph) <= y < ay))
      ax (ay - (offset + ph)) (Size pw ph) ax ay Hg) as (c1 & E1 & Hg1); cbn [width height]; try lia.
    + intros x y Hx Hy. split; [left; apply HG; lia|].
      rewrite <- (HFy (ax + x) (ay - (offset + ph) + y) (k + 1)). f_equal; lia.
    + intros x y Hx Hy [Hg'|Hg']; [tauto|]. destruct (Z_le_dec (ay - offset) y); [left; right; lia|right; lia].
    + rewrite E1. cbn [obind].
      destruct (IH (offset + ph) c1) as (o & c2 & E2 & H1 & H2 & H3 & H4); try lia; [exists (k + 1); lia|exact Hg1|].
      exists o, c2. auto.
  - exists offset, c. split; [reflexivity|]. split; [lia|]. split; [lia|]. split; [eauto|assumption].
Qed.

Lemma down_loop n fuel : 0 < ph -> 0 <= n -> ay + ph + n <= height (tsize t) ->
  forall offset c, 0 <= offset <= n -> (exists k, offset = k * ph) ->
  (Z.to_nat (n - offset) < fuel)%nat ->
  good c0 t F (fun x y => G x y \/ (ax <= x < ax + pw /\ ay + ph <= y < ay + ph + offset)) c ->
  exists offset' c', repeat_loop fuel 0 1 ph n offset (tx t + ax) (ty t + ay) (Size pw ph) c = Some (offset', c') /\
    0 <= offset' <= n /\ n - offset' < ph /\ (exists k, offset' = k * ph) /\
    good c0 t F (fun x y => G x y \/ (ax <= x < ax + pw /\ ay + ph <= y < ay + ph + offset')) c'.
Proof.
  intros Hpos Hn Hn2. bounds. induction fuel as [|fuel IH]; intros offset c Ho (k & Hk) Hf Hg; [lia|].
  cbn [repeat_loop]. rewrite isub_ok by lia. cbn [obind]. destruct (ph <=? n - offset) eqn:E.
  - rewrite iadd_ok by lia. cbn [obind]. unfold copy_to.
    replace (ty t + ay + 1 * (offset + ph)) with (ty t + (ay + (offset + ph))) by lia.
    replace (tx t + ax + 0 * (offset + ph)) with (tx t + ax) by lia.
    destruct (step_copy c0 t F Ht c (fun x y => G x y \/ (ax <= x < ax + pw /\ ay + ph <= y < ay + ph + offset))
      (fun x y => G x y \/ (ax <= x < ax + pw /\ ay + ph <= y < ay + ph + (offset + ph)))
      ax (ay + (offset + ph)) (Size pw ph) ax ay Hg) as (c1 & E1 & Hg1); cbn [width height]; try lia.
    + intros x y Hx Hy. split; [left; apply HG; lia|].
      rewrite <- (HFy (ax + x) (ay + y) (k + 1)). f_equal; lia.
    + intros x y Hx Hy [Hg'|Hg']; [tauto|]. destruct (Z_lt_dec y (ay + ph + offset)); [left; right; lia|right; lia].
    + rewrite E1. cbn [obind].
      destruct (IH (offset + ph) c1) as (o & c2 & E2 & H1 & H2 & H3 & H4); try lia; [exists (k + 1); lia|exact Hg1|].
      exists o, c2. auto.
  - exists offset, c. split; [reflexivity|]. split; [lia|]. split; [lia|]. split; [eauto|assumption].
Qed.

Variables (ix iy : Z) (p : pos).
Hypothesis Hp : int_pos p.
Hypothesis Hix : ix + px p = tx t + ax.
Hypothesis Hiy : iy + py p = ty t + ay.

Lemma up_ok n c : 0 < ph -> 0 <= n <= ay -> good c0 t F G c ->
  exists c', repeat_up ix iy (Box p (Size pw ph)) n c = Some c' /\
    good c0 t F (fun x y => G x y \/ (ax <= x < ax + pw /\ ay - n <= y < ay)) c'.
Proof.
  intros Hpos Hn Hg. bounds. destruct Hp as ((P1 & P2) & (P3 & P4)). unfold repeat_up. cbn [bpos bsize width height].
  replace (0 <? ph) with true by lia. replace (0 <=? n) with true by lia. cbn [assert obind].
  unfold pos_diff. cbn [px py]. rewrite !isub_ok by lia. cbn [obind width height].
  rewrite !Z.sub_0_r, Hix, Hiy.
  destruct (up_loop n (S (Z.to_nat n)) Hpos Hn 0 c) as (o & c1 & E1 & H1 & H2 & (k & Hk) & Hg1); try lia.
  { exists 0. lia. } { eapply good_weaken; [exact Hg|]. cbn beta. intros x y _ _ [?|?]; [assumption|lia]. }
  rewrite E1. cbn [obind]. rewrite isub_ok by lia. cbn [obind]. rewrite isub_ok by lia. cbn [obind]. unfold copy_to.
  replace (ty t + ay - n) with (ty t + (ay - n)) by lia. rewrite <- (Z.add_assoc (ty t)).
  apply (step_copy c0 t F Ht c1 (fun x y => G x y \/ (ax <= x < ax + pw /\ ay - o <= y < ay)));
    cbn [width height]; try lia; [exact Hg1| |].
  - intros x y Hx Hy. split; [left; apply HG; lia|].
    rewrite <- (HFy (ax + x) (ay - n + y) (k + 1)). f_equal; lia.
  - intros x y Hx Hy [?|?]; [tauto|]. destruct (Z_le_dec (ay - o) y); [left; right; lia|right; lia].
Qed.

Lemma down_ok n c : 0 < ph -> 0 <= n -> ay + ph + n <= height (tsize t) -> good c0 t F G c ->
  exists c', repeat_down ix iy (Box p (Size pw ph)) n c = Some c' /\
    good c0 t F (fun x y => G x y \/ (ax <= x < ax + pw /\ ay + ph <= y < ay + ph + n)) c'.
Proof.
  intros Hpos Hn Hn2 Hg. bounds. destruct Hp as ((P1 & P2) & (P3 & P4)). unfold repeat_down. cbn [bpos bsize width height].
  replace (0 <? ph) with true by lia. replace (0 <=? n) with true by lia. cbn [assert obind].
  unfold pos_diff. cbn [px py]. rewrite !isub_ok by lia. cbn [obind width height].
  rewrite !Z.sub_0_r, Hix, Hiy.
  destruct (down_loop n (S (Z.to_nat n)) Hpos Hn Hn2 0 c) as (o & c1 & E1 & H1 & H2 & (k & Hk) & Hg1); try lia.
  { exists 0. lia. } { eapply good_weaken; [exact Hg|]. cbn beta. intros x y _ _ [?|?]; [assumption|lia]. }
  rewrite E1. cbn [obind]. rewrite isub_ok by lia. cbn [obind]. rewrite iadd_ok by lia. cbn [obind]. unfold copy_to.
  replace (ty t + ay + (o + ph)) with (ty t + (ay + (o + ph))) by lia.
  apply (step_copy c0 t F Ht c1 (fun x y => G x y \/ (ax <= x < ax + pw /\ ay + ph <= y < ay + ph + o)));
    cbn [width height]; try lia; [exact Hg1| |].
  - intros x y Hx Hy. split; [left; apply HG; lia|].
    rewrite <- (HFy (ax + x) (ay + y) (k + 1)). f_equal; lia.
  - intros x y Hx Hy [?|?]; [tauto|]. destruct (Z_lt_dec y (ay + ph + o)); [left; right; lia|right; lia].
Qed.

End RepV.

(* the target *)
Definition target {P} (c : canvas P) (ix iy : Z) (pattern : box) (ox oy x y : Z) : P :=
  let p := bpos pattern in
  cpix c (ix + (px p + (ox + x - px p) mod width (bsize pattern)))
         (iy + (py p + (oy + y - py p) mod height (bsize pattern))).

Lemma target_px {P} (c : canvas P) ix iy pattern ox oy x y k : 
  target c ix iy pattern ox oy (x + k * width (bsize pattern)) y = target c ix iy pattern ox oy x y.
Proof.
  unfold target. destruct (Z.eq_dec (width (bsize pattern)) 0) as [E|E].
  - rewrite E. rewrite Z.mul_0_r, Z.add_0_r. reflexivity.
  - do 3 f_equal. replace (ox + (x + k * width (bsize pattern)) - px (bpos pattern)) with
      (ox + x - px (bpos pattern) + k * width (bsize pattern)) by lia. apply Z_mod_plus_full.
Qed.

Lemma target_py {P} (c : canvas P) ix iy pattern ox oy x y k : 
  target c ix iy pattern ox oy x (y + k * height (bsize pattern)) = target c ix iy pattern ox oy x y.
Proof.
  unfold target. destruct (Z.eq_dec (height (bsize pattern)) 0) as [E|E].
  - rewrite E. rewrite Z.mul_0_r, Z.add_0_r. reflexivity.
  - do 3 f_equal. replace (oy + (y + k * height (bsize pattern)) - py (bpos pattern)) with
      (oy + y - py (bpos pattern) + k * height (bsize pattern)) by lia. apply Z_mod_plus_full.
Qed.

Definition area_tray (ix iy : Z) (area : box) : tray := Tray (ix + px (bpos area)) (iy + py (bpos area)) (bsize area).

Lemma good_filled {P} (c c' : canvas P) ix iy pattern area G :
  good c (area_tray ix iy area) (target c ix iy pattern (px (bpos area)) (py (bpos area))) G c' ->
  (forall x y, 0 <= x < width (bsize area) -> 0 <= y < height (bsize area) -> G x y) ->
  filled c ix iy pattern area c'.
Proof.
  intros ([S1 S2] & Hin & Hout) HG. split; [assumption|]. split; [assumption|]. split.
  - intros x y Ha k l Hb. unfold in_box in Ha, Hb.
    specialize (Hin (x - px (bpos area)) (y - py (bpos area))). cbn [area_tray tx ty tsize] in Hin.
    replace (ix + px (bpos area) + (x - px (bpos area))) with (ix + x) in Hin by lia.
    replace (iy + py (bpos area) + (y - py (bpos area))) with (iy + y) in Hin by lia.
    rewrite Hin; [|lia|lia|apply HG; lia].
    rewrite <- (target_px _ _ _ _ _ _ _ _ k), <- (target_py _ _ _ _ _ _ _ _ l). unfold target.
    rewrite !Z.mod_small by lia. f_equal; lia.
  - intros x y Ha. apply Hout. unfold in_tray, area_tray, in_box in *. cbn [tx ty tsize]. lia.
Qed.

Lemma good_pattern {P} (c : canvas P) ix iy pattern area :
  good c (area_tray ix iy area) (target c ix iy pattern (px (bpos area)) (py (bpos area)))
    (fun x y => in_box pattern (px (bpos area) + x) (py (bpos area) + y)) c.
Proof.
  split; [split; reflexivity|]. split; [|reflexivity]. intros x y Hx Hy Hb. unfold in_box in Hb.
  unfold target. cbn [area_tray tx ty]. rewrite !Z.mod_small by lia. f_equal; lia.
Qed.

Lemma area_tray_ok {P} (c : canvas P) ix iy area : int_size (bsize area) -> box_inside c ix iy area ->
  tray_ok c (area_tray ix iy area).
Proof. intros Hs (A & B & C & D). split; [exact Hs|]. cbn [area_tray tx ty tsize]. auto. Qed.

Lemma shift_ok pattern x y : 0 < width (bsize pattern) -> 0 < height (bsize pattern) -> shift_exists pattern x y.
Proof.
  intros Hw Hh. exists (- ((x - px (bpos pattern)) / width (bsize pattern))), (- ((y - py (bpos pattern)) / height (bsize pattern))).
  unfold in_box. 
  pose proof (Z.div_mod (x - px (bpos pattern)) (width (bsize pattern))) as D1.
  pose proof (Z.div_mod (y - py (bpos pattern)) (height (bsize pattern))) as D2.
  pose proof (Z.mod_pos_bound (x - px (bpos pattern)) (width (bsize pattern)) Hw).
  pose proof (Z.mod_pos_bound (y - py (bpos pattern)) (height (bsize pattern)) Hh). lia.
Qed.
