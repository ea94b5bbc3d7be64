(* Lemmas on Reader::subdivide and on what is done for each of the subboxes *)
From Coq Require Import ZArith Bool List Lia.
From Verif Require Import CInt IntModel IntProofs3 PixelBoxModel PixelBoxSpec PixelBoxProps.
From Verif Require Import FalloffModel FalloffSpec FalloffProofs FalloffProofs2 FalloffProofs3.
From Verif Require Import ArrLib.
Import ListNotations.
Open Scope Z_scope.

Definition tiling (R : Z -> Z -> Prop) (l : list box) : Prop :=
  (forall c x y, In c l -> in_box c x y -> R x y) /\
  (forall x y, R x y -> exists i c, nth_error l i = Some c /\ in_box c x y) /\
  (forall i j c d x y, nth_error l i = Some c -> nth_error l j = Some d ->
     in_box c x y -> in_box d x y -> i = j).

Lemma tiling_nil R : (forall x y, ~ R x y) -> tiling R [].
Proof.
  intros H. split; [|split].
  - intros c x y [].
  - intros x y Hr. destruct (H x y Hr).
  - intros i j c d x y E. destruct i; discriminate E.
Qed.

Lemma tiling_one R c : (forall x y, R x y <-> in_box c x y) -> tiling R [c].
Proof.
  intros H. split; [|split].
  - intros d x y [->|[]] Hd. now apply H.
  - intros x y Hr. exists 0%nat, c. split; [reflexivity|]. now apply H.
  - intros i j d e x y Ei Ej _ _. destruct i as [|i]; [|destruct i; discriminate Ei].
    destruct j as [|j]; [reflexivity|destruct j; discriminate Ej].
Qed.

Lemma tiling_app (R R1 R2 : Z -> Z -> Prop) l1 l2 : tiling R1 l1 -> tiling R2 l2 ->
  (forall x y, R1 x y -> R2 x y -> False) -> (forall x y, R x y <-> R1 x y \/ R2 x y) -> tiling R (l1 ++ l2).
Proof.
  intros (A1 & A2 & A3) (B1 & B2 & B3) Hd HR. split; [|split].
  - intros c x y Hin Hb. apply HR. apply in_app_or in Hin. destruct Hin; [left|right]; eauto.
  - intros x y Hr. apply HR in Hr. destruct Hr as [Hr|Hr].
    + destruct (A2 x y Hr) as (i & c & E & Hb). exists i, c. split; [|assumption].
      rewrite nth_error_app1; [assumption|]. apply nth_error_Some. congruence.
    + destruct (B2 x y Hr) as (i & c & E & Hb). exists (length l1 + i)%nat, c. split; [|assumption].
      rewrite nth_error_app2 by lia. replace (length l1 + i - length l1)%nat with i by lia. assumption.
  - intros i j c d x y Ei Ej Hc Hdd.
    destruct (Nat.lt_ge_cases i (length l1)) as [Hi|Hi]; destruct (Nat.lt_ge_cases j (length l1)) as [Hj|Hj].
    + rewrite nth_error_app1 in Ei, Ej by assumption. eapply A3; eassumption.
    + rewrite nth_error_app1 in Ei by assumption. rewrite nth_error_app2 in Ej by assumption.
      exfalso. apply (Hd x y); [eapply A1|eapply B1]; eauto using nth_error_In.
    + rewrite nth_error_app2 in Ei by assumption. rewrite nth_error_app1 in Ej by assumption.
      exfalso. apply (Hd x y); [eapply A1|eapply B1]; eauto using nth_error_In.
    + rewrite nth_error_app2 in Ei, Ej by assumption.
      assert (i - length l1 = j - length l1)%nat by (eapply B3; eassumption). lia.
Qed.

Definition sub_fine (b c : box) : Prop :=
  valid_box c /\ corners_within b c /\ width (bsize c) * height (bsize c) <= 4096 /\
  (0 < height (bsize b) -> 0 < width (bsize c) /\ 0 < height (bsize c)).

Definition region (b : box) (x0 x1 y0 y1 X Y : Z) : Prop :=
  x0 <= X - px (bpos b) < x1 /\ y0 <= Y - py (bpos b) < y1.

Lemma row_ok b max_w h y fuel : valid_box b -> 0 < max_w -> max_w * h <= 4096 -> 0 < h ->
  0 <= y -> y + h <= height (bsize b) -> forall x, 0 <= x < width (bsize b) ->
  (Z.to_nat (width (bsize b) - x) <= fuel)%nat ->
  exists l, subdivide_row fuel b max_w h x y = Some l /\
    (forall c, In c l -> sub_fine b c) /\ tiling (region b x (width (bsize b)) y (y + h)) l.
Proof.
  intros Hv Hm Ha Hh Hy0 Hy1. induction fuel as [|fuel IH]; intros x Hx Hf; [lia|].
  pose proof Hv as (V1 & V2 & V3 & V4 & V5 & V6).
  cbn [subdivide_row]. rewrite isub_ok by lia. cbn [obind]. unfold pos_add. cbn [width height].
  rewrite !iadd_ok by lia. cbn [obind].
  remember (Z.min (width (bsize b) - x) max_w) as w.
  set (c := Box (Pos (px (bpos b) + x) (py (bpos b) + y)) (Size w h)).
  assert (Hc : sub_fine b c).
  { unfold sub_fine, valid_box, corners_within, c. cbn [bpos bsize px py width height].
    split; [lia|]. split; [lia|]. split; [nia|]. lia. }
  destruct (x + w <? width (bsize b)) eqn:E.
  - destruct (IH (x + w)) as (l & El & Hl & Ht); [lia|lia|]. rewrite El. cbn [obind].
    exists (c :: l). split; [reflexivity|]. split.
    + intros d [<-|Hd]; auto.
    + change (c :: l) with ([c] ++ l). eapply tiling_app.
      * apply (tiling_one (region b x (x + w) y (y + h))). intros X Y. unfold region, in_box, c.
        cbn [bpos bsize px py width height]. lia.
      * exact Ht.
      * unfold region. lia.
      * unfold region. lia.
  - exists [c]. split; [reflexivity|]. split.
    + intros d [<-|[]]; auto.
    + apply tiling_one. intros X Y. unfold region, in_box, c. cbn [bpos bsize px py width height]. lia.
Qed.

Lemma quot_area h : 0 < h <= 4096 -> 0 < Z.quot block_area h /\ Z.quot block_area h * h <= 4096.
Proof.
  intros H. unfold block_area, block_width, block_height. rewrite Z.quot_div_nonneg by lia.
  split; [apply Z.div_str_pos; lia|]. pose proof (Z.mul_div_le (64 * 64) h). lia.
Qed.

Lemma wide_ok b fuel : valid_box b -> 0 < width (bsize b) ->
  forall y, 0 <= y <= height (bsize b) -> (Z.to_nat (height (bsize b) - y) < fuel)%nat ->
  exists l, subdivide_wide fuel b y = Some l /\
    (forall c, In c l -> sub_fine b c) /\ tiling (region b 0 (width (bsize b)) y (height (bsize b))) l.
Proof.
  intros Hv Hw. induction fuel as [|fuel IH]; intros y Hy Hf; [lia|].
  pose proof Hv as (V1 & V2 & V3 & V4 & V5 & V6).
  cbn [subdivide_wide]. rewrite isub_ok by lia. cbn [obind].
  destruct (height (bsize b) - y =? 0) eqn:E0.
  - exists []. split; [reflexivity|]. split; [intros c []|]. apply tiling_nil. unfold region. lia.
  - assert (Hhm : exists h max_w, (if block_height <=? height (bsize b) - y then (block_height, block_width)
        else (height (bsize b) - y, Z.quot block_area (height (bsize b) - y))) = (h, max_w) /\
        0 < h /\ 0 < max_w /\ max_w * h <= 4096 /\ y + h <= height (bsize b)).
    { unfold block_height, block_width. destruct (64 <=? height (bsize b) - y) eqn:E1.
      - exists 64, 64. split; [reflexivity|]. lia.
      - destruct (quot_area (height (bsize b) - y)) as [Q1 Q2]; [lia|].
        exists (height (bsize b) - y), (Z.quot block_area (height (bsize b) - y)). split; [reflexivity|]. lia. }
    destruct Hhm as (h & max_w & Eq & H1 & H2 & H3 & H4). rewrite Eq.
    destruct (row_ok b max_w h y (S (Z.to_nat (width (bsize b)))) Hv H2 H3 H1) with (x := 0) as (r & Er & Hr & Tr); try lia.
    rewrite Er. cbn [obind]. rewrite iadd_ok by lia. cbn [obind].
    destruct (IH (y + h)) as (l & El & Hl & Tl); [lia|lia|]. rewrite El. cbn [obind].
    exists (r ++ l). split; [reflexivity|]. split.
    + intros c Hc. apply in_app_or in Hc. destruct Hc; auto.
    + eapply tiling_app; [exact Tr|exact Tl| |]; unfold region; lia.
Qed.

Lemma narrow_ok b max_h fuel : valid_box b -> 0 < width (bsize b) -> 0 < max_h -> max_h * width (bsize b) <= 4096 ->
  forall y, 0 <= y -> (y < height (bsize b) \/ y = 0) -> (Z.to_nat (height (bsize b) - y) < fuel)%nat ->
  exists l, subdivide_narrow fuel b max_h y = Some l /\
    (forall c, In c l -> sub_fine b c) /\ tiling (region b 0 (width (bsize b)) y (height (bsize b))) l.
Proof.
  intros Hv Hw Hm Ha. induction fuel as [|fuel IH]; intros y Hy0 Hy Hf; [lia|].
  pose proof Hv as (V1 & V2 & V3 & V4 & V5 & V6).
  cbn [subdivide_narrow]. rewrite isub_ok by lia. cbn [obind]. unfold pos_add. cbn [width height].
  rewrite !iadd_ok by lia. cbn [obind].
  remember (Z.min (height (bsize b) - y) max_h) as h.
  set (c := Box (Pos (px (bpos b) + 0) (py (bpos b) + y)) (Size (width (bsize b)) h)).
  assert (Hc : sub_fine b c).
  { unfold sub_fine, valid_box, corners_within, c. cbn [bpos bsize px py width height].
    split; [lia|]. split; [lia|]. split; [nia|]. lia. }
  destruct (y + h <? height (bsize b)) eqn:E.
  - destruct (IH (y + h)) as (l & El & Hl & Ht); [lia|lia|lia|]. rewrite El. cbn [obind].
    exists (c :: l). split; [reflexivity|]. split.
    + intros d [<-|Hd]; auto.
    + change (c :: l) with ([c] ++ l). eapply tiling_app.
      * apply (tiling_one (region b 0 (width (bsize b)) y (y + h))). intros X Y. unfold region, in_box, c.
        cbn [bpos bsize px py width height]. lia.
      * exact Ht.
      * unfold region. lia.
      * unfold region. lia.
  - exists [c]. split; [reflexivity|]. split.
    + intros d [<-|[]]; auto.
    + apply tiling_one. intros X Y. unfold region, in_box, c. cbn [bpos bsize px py width height]. lia.
Qed.

Lemma box_valid_ok b : valid_box b -> box_valid b = true.
Proof.
  intros Hv. pose proof Hv as (V1 & V2 & V3 & V4 & V5 & V6). destruct b as [[x y] [w h]]. cbn [bpos bsize px py width height] in *.
  apply box_valid_exact; try assumption; unfold in_range, imin, imax, t_int; cbn in *; lia.
Qed.

Lemma subdivide_ok b : valid_box b ->
  exists l, subdivide b = Some l /\ partition b l /\ (forall c, In c l -> sub_fine b c).
Proof.
  intros Hv. unfold subdivide. rewrite box_valid_ok by assumption. cbn [assert obind].
  pose proof Hv as (V1 & V2 & V3 & V4 & V5 & V6).
  assert (Hp : forall l, (forall c, In c l -> sub_fine b c) ->
    tiling (region b 0 (width (bsize b)) 0 (height (bsize b))) l -> partition b l).
  { intros l Hl (T1 & T2 & T3). split; [|split; [|exact T3]].
    - intros c Hc. destruct (Hl c Hc) as (A & B & _). auto.
    - intros x y Hb. apply T2. unfold region, in_box in *. lia. }
  unfold block_width. destruct (64 <=? width (bsize b)) eqn:E1.
  - destruct (wide_ok b (S (Z.to_nat (height (bsize b))))) with (y := 0) as (l & El & Hl & Tl); try lia; [assumption|].
    exists l. auto.
  - destruct (0 <? width (bsize b)) eqn:E2.
    + destruct (quot_area (width (bsize b))) as [Q1 Q2]; [lia|].
      destruct (narrow_ok b (Z.quot block_area (width (bsize b))) (S (Z.to_nat (height (bsize b))))) with (y := 0)
        as (l & El & Hl & Tl); try lia; [assumption|].
      exists l. auto.
    + exists []. split; [reflexivity|]. split; [|intros c []]. apply Hp; [intros c []|]. apply tiling_nil.
      unfold region. lia.
Qed.

(* doing something for each of the subboxes of a box *)
Lemma in_box_dec b x y : {in_box b x y} + {~ in_box b x y}.
Proof.
  unfold in_box. destruct (Z_le_dec (px (bpos b)) x); [|right; lia].
  destruct (Z_lt_dec x (px (bpos b) + width (bsize b))); [|right; lia].
  destruct (Z_le_dec (py (bpos b)) y); [|right; lia].
  destruct (Z_lt_dec y (py (bpos b) + height (bsize b))); [left; lia|right; lia].
Qed.

(* pixelwise change of a box of a canvas *)
Definition changes {R} (c : canvas R) (b : box) (f : Z -> Z -> R -> R) (c' : canvas R) : Prop :=
  same_size c c' /\
  forall x y, (in_box b x y -> cpix c' x y = f x y (cpix c x y)) /\ (~ in_box b x y -> cpix c' x y = cpix c x y).

Lemma each_ok {R} (c0 : canvas R) (f : Z -> Z -> R -> R) act : forall l,
  (forall i j c d x y, nth_error l i = Some c -> nth_error l j = Some d -> in_box c x y -> in_box d x y -> i = j) ->
  (forall b c, In b l -> same_size c0 c -> exists c', act b c = Some c' /\ changes c b f c') ->
  forall c, same_size c0 c ->
  exists c', each l act c = Some c' /\ same_size c c' /\
    forall x y, ((exists b, In b l /\ in_box b x y) -> cpix c' x y = f x y (cpix c x y)) /\
                ((forall b, In b l -> ~ in_box b x y) -> cpix c' x y = cpix c x y).
Proof.
  induction l as [|b l IH]; intros Hd Ha c Hs.
  - exists c. split; [reflexivity|]. split; [split; reflexivity|]. intros x y. split; [|reflexivity].
    intros (b & [] & _).
  - cbn [each]. destruct (Ha b c) as (c1 & E1 & (S1 & P1)); [now left|assumption|]. rewrite E1. cbn [obind].
    assert (Hs1 : same_size c0 c1) by (unfold same_size in *; destruct S1, Hs; split; congruence).
    destruct (IH) with (c := c1) as (c2 & E2 & S2 & P2).
    + intros i j d e x y Ei Ej Hdd He. assert (S i = S j) by (eapply Hd; [exact Ei|exact Ej|exact Hdd|exact He]). congruence.
    + intros b' c' Hb'. apply Ha. now right.
    + assumption.
    + exists c2. split; [exact E2|]. split; [unfold same_size in *; destruct S1, S2; split; congruence|].
      intros x y. destruct (P1 x y) as [Q1 Q2]. destruct (P2 x y) as [Q3 Q4]. split.
      * intros (d & [<-|Hin] & Hb).
        -- rewrite Q4; [auto|]. intros e He Hbe. apply In_nth_error in He. destruct He as [i Ei].
           assert (0%nat = S i) by (eapply (Hd 0%nat (S i)); [reflexivity|exact Ei|exact Hb|exact Hbe]). discriminate.
        -- rewrite Q3 by eauto. destruct (in_box_dec b x y) as [Hbb|Hbb]; [|now rewrite Q2].
           apply In_nth_error in Hin. destruct Hin as [i Ei].
           assert (0%nat = S i) by (eapply (Hd 0%nat (S i)); [reflexivity|exact Ei|exact Hbb|exact Hb]). discriminate.
      * intros Hn. rewrite Q4 by (intros; apply Hn; now right). apply Q2. apply Hn. now left.
Qed.

Lemma each_subdivide {R} (c0 : canvas R) (f : Z -> Z -> R -> R) act b : valid_box b ->
  (forall d c, valid_box d -> corners_within b d -> same_size c0 c -> exists c', act d c = Some c' /\ changes c d f c') ->
  exists c', (let? l := subdivide b in each l act c0) = Some c' /\ changes c0 b f c'.
Proof.
  intros Hv Ha. destruct (subdivide_ok b Hv) as (l & El & (A1 & A2 & A3) & _). rewrite El. cbn [obind].
  destruct (each_ok c0 f act l A3) with (c := c0) as (c' & E & S1 & Hp).
  - intros d c Hd Hs. destruct (A1 d Hd). auto.
  - split; reflexivity.
  - exists c'. split; [exact E|]. split; [exact S1|]. intros x y. destruct (Hp x y) as [H1 H2]. split.
    + intros Hb. apply H1. destruct (A2 x y Hb) as (i & d & Ei & Hd). exists d. split; [eapply nth_error_In; exact Ei|assumption].
    + intros Hb. apply H2. intros d Hd Hbd. apply Hb. destruct (A1 d Hd) as [_ (W1 & W2 & W3 & W4)].
      unfold in_box in *. lia.
Qed.

(* the same with trays: the tray is the part of the canvas that corresponds to the box *)
Lemma get_block_ok {P} (s : source P) hm vm bg p t (c : canvas P) :
  source_ok s -> valid_box (Box p (tsize t)) -> tray_ok c t ->
  exists c', get_block s hm vm bg p t c = Some c' /\
    tray_becomes c t (fun x y => extended s hm vm bg (px p + x) (py p + y)) c'.
Proof.
  intros Hs Hv Ht. unfold get_block.
  destruct (subdivide_ok _ Hv) as (l & El & (A1 & A2 & A3) & _). rewrite El. cbn [obind].
  set (F := fun x y => extended s hm vm bg (px p + x) (py p + y)).
  set (act := fun b c => let? u := subtray t b p in read_e s hm vm bg (bpos b) u c).
  pose proof Ht as ((Hts1 & Hts2) & Htx & Hty & Htw & Hth).
  pose proof Hv as (V1 & V2 & V3 & V4 & V5 & V6). cbn [bpos bsize] in *.
  assert (He : forall l (G : Z -> Z -> Prop) c1, (forall b, In b l -> valid_box b /\ corners_within (Box p (tsize t)) b) ->
    good c t F G c1 ->
    exists c', each l act c1 = Some c' /\
      good c t F (fun x y => G x y \/ exists b, In b l /\ in_box b (px p + x) (py p + y)) c').
  { clear l El A1 A2 A3. induction l as [|b l IH]; intros G c1 Hl Hg.
    - exists c1. split; [reflexivity|]. eapply good_weaken; [exact Hg|]. cbn beta. intros x y _ _ [?|(b & [] & _)]. assumption.
    - cbn [each]. destruct (Hl b (or_introl eq_refl)) as [Hvb Hwb].
      pose proof Hvb as (U1 & U2 & U3 & U4 & U5 & U6). pose proof Hwb as (W1 & W2 & W3 & W4). cbn [bpos bsize] in *.
      unfold act at 1. rewrite subtray_ok by lia. cbn [obind].
      assert (Hsub : tray_ok c1 (Tray (tx t + (px (bpos b) - px p)) (ty t + (py (bpos b) - py p)) (bsize b))).
      { destruct Hg as ([Sw Sh] & _). unfold tray_ok, int_size. cbn [tx ty tsize]. lia. }
      assert (Hip : int_pos (bpos b)) by (unfold int_pos; lia).
      destruct (read_e_ok s hm vm bg (bpos b) _ c1 Hs Hip Hsub) as (c2 & E2 & B2).
      rewrite E2. cbn [obind].
      destruct (IH (fun x y => G x y \/ in_box b (px p + x) (py p + y)) c2) as (c3 & E3 & Hg3).
      + intros b' Hb'. apply Hl. now right.
      + eapply good_step; [exact Hg|exact B2|lia|lia|lia|lia| |].
        * cbn beta. intros x y Hx Hy. unfold F. f_equal; lia.
        * cbn beta. unfold in_box. intros x y Hx Hy [?|?]; [tauto|]. right. lia.
      + exists c3. split; [exact E3|]. eapply good_weaken; [exact Hg3|]. cbn beta.
        intros x y Hx Hy [?|(b' & [<-|Hb'] & Hi)]; [tauto|tauto|]. right. eauto. }
  destruct (He l (fun _ _ => False) c A1 (good_start c t F)) as (c' & E & Hg).
  exists c'. split; [exact E|]. eapply good_done; [exact Hg|]. cbn beta. intros x y Hx Hy. right.
  destruct (A2 (px p + x) (py p + y)) as (i & b & Ei & Hb).
  - unfold in_box. cbn [bpos bsize]. lia.
  - exists b. split; [eapply nth_error_In; exact Ei|assumption].
Qed.

(* writing *)
Lemma clip_ok isz p sz : int_size isz -> int_size sz -> int_pos p -> px p <> - 2 ^ 31 -> py p <> - 2 ^ 31 ->
  exists r b, clip (box_of isz) (Box p sz) = Some (r, b) /\
    (r = false -> forall x y, 0 <= x < width isz -> 0 <= y < height isz -> ~ in_box (Box p sz) x y) /\
    (r = true -> valid_box b /\ corners_within (box_of isz) b /\
       px p <= px (bpos b) /\ py p <= py (bpos b) /\
       px (bpos b) + width (bsize b) <= px p + width sz /\ py (bpos b) + height (bsize b) <= py p + height sz /\
       forall x y, in_box b x y <-> (0 <= x < width isz /\ 0 <= y < height isz /\ in_box (Box p sz) x y)).
Proof.
  intros ((I1 & I2) & (I3 & I4)) ((S1 & S2) & (S3 & S4)) ((P1 & P2) & (P3 & P4)) N1 N2.
  unfold clip, box_of. cbn [bpos bsize px py width height].
  assert (Hd : forall n q w, 0 <= n < 2 ^ 31 -> 0 <= w < 2 ^ 31 -> - 2 ^ 31 < q < 2 ^ 31 ->
    exists r, clip_dim 0 n q w = Some r /\
      match r with
      | None => forall x, 0 <= x < n -> ~ q <= x < q + w
      | Some (x, l) => 0 <= x < 2 ^ 31 /\ 0 < l /\ x + l <= n /\ q <= x /\ x + l <= q + w /\
          forall i, x <= i < x + l <-> (0 <= i < n /\ q <= i < q + w)
      end).
  { clear. intros n q w Hn Hw Hq. unfold clip_dim. destruct (0 <=? q) eqn:E.
    - rewrite isub_ok by lia. cbn [obind]. rewrite isub_ok by lia. cbn [obind].
      destruct ((n - (q - 0) <=? 0) || (w <=? 0)) eqn:E1.
      + apply orb_true_iff in E1. eexists. split; [reflexivity|]. cbn beta iota. lia.
      + apply orb_false_iff in E1. eexists. split; [reflexivity|]. cbn beta iota.
        split; [lia|]. split; [lia|]. split; [lia|]. split; [lia|]. split; [lia|]. intros i. lia.
    - rewrite isub_ok by lia. cbn [obind]. rewrite isub_ok by lia. cbn [obind].
      destruct ((w - (0 - q) <=? 0) || (n <=? 0)) eqn:E1.
      + apply orb_true_iff in E1. eexists. split; [reflexivity|]. cbn beta iota. lia.
      + apply orb_false_iff in E1. eexists. split; [reflexivity|]. cbn beta iota.
        split; [lia|]. split; [lia|]. split; [lia|]. split; [lia|]. split; [lia|]. intros i. lia. }
  destruct (Hd (width isz) (px p) (width sz)) as (rh & Eh & Hh); [lia|lia|lia|]. rewrite Eh. cbn [obind].
  destruct rh as [[x w]|].
  2:{ eexists _, _. split; [reflexivity|]. split; [|discriminate]. intros _ x y Hx Hy. unfold in_box. cbn [bpos bsize].
      specialize (Hh x Hx). lia. }
  destruct (Hd (height isz) (py p) (height sz)) as (rv & Ev & Hv); [lia|lia|lia|]. rewrite Ev. cbn [obind].
  destruct rv as [[y h]|].
  2:{ eexists _, _. split; [reflexivity|]. split; [|discriminate]. intros _ x' y Hx Hy. unfold in_box. cbn [bpos bsize].
      specialize (Hv y Hy). lia. }
  eexists _, _. split; [reflexivity|]. split; [discriminate|]. intros _.
  destruct Hh as (H1 & H2 & H3 & H4 & H5 & H6). destruct Hv as (K1 & K2 & K3 & K4 & K5 & K6).
  unfold valid_box, corners_within, in_box. cbn [bpos bsize px py width height].
  split; [lia|]. split; [lia|]. split; [lia|]. split; [lia|]. split; [lia|]. split; [lia|].
  intros X Y. rewrite H6, K6. lia.
Qed.

Definition box_tray (b : box) : tray := Tray (px (bpos b)) (py (bpos b)) (bsize b).

Lemma becomes_changes {R} (c c' : canvas R) b g f : tray_becomes c (box_tray b) g c' ->
  (forall x y, 0 <= x < width (bsize b) -> 0 <= y < height (bsize b) ->
     g x y = f (px (bpos b) + x) (py (bpos b) + y) (cpix c (px (bpos b) + x) (py (bpos b) + y))) ->
  changes c b f c'.
Proof.
  intros (A & B & C & D) H. split; [split; assumption|]. intros x y. unfold in_tray in *. cbn [box_tray tx ty tsize] in *.
  unfold in_box. split; intros Hb.
  - rewrite C by lia. rewrite H by lia. replace (px (bpos b) + (x - px (bpos b))) with x by lia.
    replace (py (bpos b) + (y - py (bpos b))) with y by lia. reflexivity.
  - apply D. lia.
Qed.

(* the box lies inside of the image *)
Definition box_in {R} (img : canvas R) (b : box) : Prop :=
  valid_box b /\ 0 <= px (bpos b) /\ 0 <= py (bpos b) /\
  px (bpos b) + width (bsize b) <= cw img /\ py (bpos b) + height (bsize b) <= ch img.

Lemma box_tray_ok {R} (img : canvas R) b : box_in img b -> tray_ok img (box_tray b).
Proof.
  intros ((V1 & V2 & V3 & V4 & V5 & V6) & H1 & H2 & H3 & H4). unfold tray_ok, int_size, box_tray. cbn [tx ty tsize]. lia.
Qed.

Lemma image_write_ok {R P} (f : P -> R) b (work : canvas P) t (img : canvas R) :
  box_in img b -> tray_ok work t -> tsize t = bsize b ->
  exists img', image_write f (bpos b) work t img = Some img' /\
    tray_becomes img (box_tray b) (fun x y => f (cpix work (tx t + x) (ty t + y))) img'.
Proof.
  intros Hb Ht Es. unfold image_write. rewrite Es. change (bsize b) with (tsize (box_tray b)).
  apply (loop2_px img (box_tray b)); [now apply box_tray_ok|].
  intros x y c Hx Hy _ _. cbn [box_tray tsize] in Hx, Hy. destruct Ht as (_ & T1 & T2 & T3 & T4). rewrite Es in T3, T4.
  rewrite get_px_ok by lia. reflexivity.
Qed.

Lemma blend_block_ok {R P} (ops : pixel_ops R P) junk b (work : canvas P) t (img : canvas R) :
  box_in img b -> tray_ok work t -> tsize t = bsize b ->
  exists c, blend_block ops junk (bpos b) work t img = Some c /\
    cw c = width (bsize b) /\ ch c = height (bsize b) /\
    forall x y, 0 <= x < width (bsize b) -> 0 <= y < height (bsize b) ->
      cpix c x y = over ops (cpix work (tx t + x) (ty t + y))
                     (dec ops (cpix img (px (bpos b) + x) (py (bpos b) + y))).
Proof.
  intros Hb Ht Es. unfold blend_block. rewrite Es.
  destruct Hb as ((V1 & V2 & V3 & V4 & V5 & V6) & B1 & B2 & B3 & B4).
  destruct Ht as ((T0 & T0') & T1 & T2 & T3 & T4). rewrite Es in T0, T0', T3, T4.
  pose (w0 := Canvas (width (bsize b)) (height (bsize b)) junk).
  destruct (loop2_px w0 (Tray 0 0 (bsize b))
    (fun x y => over ops (cpix work (tx t + x) (ty t + y)) (dec ops (cpix img (px (bpos b) + x) (py (bpos b) + y))))
    (fun x y c =>
       let? below := get_px img (px (bpos b) + x) (py (bpos b) + y) in
       let? above := get_px work (tx t + x) (ty t + y) in
       set_px c x y (over ops above (dec ops below)))) as (c & E & (A1 & A2 & A3 & _)).
  - unfold tray_ok, int_size. cbn [tx ty tsize w0 cw ch]. lia.
  - cbn [tx ty tsize]. intros x y c Hx Hy _ _. rewrite !get_px_ok by lia. cbn [obind]. reflexivity.
  - exists c. split; [exact E|]. split; [assumption|]. split; [assumption|].
    intros x y Hx Hy. rewrite A3 by (unfold in_tray; cbn [tx ty tsize]; lia). cbn [tx ty]. rewrite !Z.sub_0_r. reflexivity.
Qed.

Lemma whole_ok {P} (c : canvas P) sz : int_size sz -> cw c = width sz -> ch c = height sz ->
  tray_ok c (whole c) /\ tsize (whole c) = sz.
Proof.
  intros (S1 & S2) Ew Eh. unfold tray_ok, int_size, whole. cbn [tx ty tsize width height]. rewrite Ew, Eh.
  destruct sz. cbn in *. split; [lia|reflexivity].
Qed.

Lemma valid_int_size b : valid_box b -> int_size (bsize b).
Proof. intros (V1 & V2 & V3 & V4 & V5 & V6). unfold int_size. lia. Qed.

Lemma blend_write_ok {R P} (ops : pixel_ops R P) junk b (work : canvas P) t (img : canvas R) (src : Z -> Z -> P) :
  box_in img b -> tray_ok work t -> tsize t = bsize b ->
  (forall x y, 0 <= x < width (bsize b) -> 0 <= y < height (bsize b) ->
     cpix work (tx t + x) (ty t + y) = src (px (bpos b) + x) (py (bpos b) + y)) ->
  exists img', (let? c := blend_block ops junk (bpos b) work t img in image_write (enc ops) (bpos b) c (whole c) img) = Some img' /\
    changes img b (fun x y old => paint ops true (src x y) old) img'.
Proof.
  intros Hb Ht Es Hsrc. destruct (blend_block_ok ops junk b work t img Hb Ht Es) as (c & E & A1 & A2 & A3).
  rewrite E. cbn [obind]. destruct (whole_ok c (bsize b)) as [Hc Hcs]; try assumption.
  { apply valid_int_size. apply Hb. }
  destruct (image_write_ok (enc ops) b c (whole c) img Hb Hc Hcs) as (img' & E2 & B).
  exists img'. split; [exact E2|]. eapply becomes_changes; [exact B|]. cbn beta. intros x y Hx Hy.
  cbn [whole tx ty paint]. rewrite !Z.add_0_l. rewrite A3 by assumption. now rewrite Hsrc.
Qed.

Lemma write_b_ok {R P} (ops : pixel_ops R P) blending junk b (work : canvas P) t (img : canvas R) (src : Z -> Z -> P) :
  box_in img b -> tray_ok work t -> tsize t = bsize b ->
  (forall x y, 0 <= x < width (bsize b) -> 0 <= y < height (bsize b) ->
     cpix work (tx t + x) (ty t + y) = src (px (bpos b) + x) (py (bpos b) + y)) ->
  exists img', write_b ops blending junk (bpos b) work t img = Some img' /\
    changes img b (fun x y old => paint ops blending (src x y) old) img'.
Proof.
  intros Hb Ht Es Hsrc. unfold write_b. destruct blending; cbn [negb].
  - now apply blend_write_ok.
  - destruct (image_write_ok (enc ops) b work t img Hb Ht Es) as (img' & E & B).
    exists img'. split; [exact E|]. eapply becomes_changes; [exact B|]. cbn beta. intros x y Hx Hy.
    cbn [paint]. now rewrite Hsrc.
Qed.

Lemma changes_area {R} (img img' : canvas R) b area f : changes img b f img' ->
  (forall x y, in_box b x y <-> (0 <= x < cw img /\ 0 <= y < ch img /\ in_box area x y)) ->
  area_becomes img area f img'.
Proof.
  intros ([S1 S2] & H) Hb. split; [assumption|]. split; [assumption|]. intros x y Hx Hy. destruct (H x y) as [H1 H2].
  split; intros Ha; [apply H1|apply H2]; rewrite Hb; tauto.
Qed.

Lemma area_same {R} (img : canvas R) area f :
  (forall x y, 0 <= x < cw img -> 0 <= y < ch img -> ~ in_box area x y) -> area_becomes img area f img.
Proof.
  intros H. split; [reflexivity|]. split; [reflexivity|]. intros x y Hx Hy. split; [|reflexivity].
  intros Hb. destruct (H x y Hx Hy Hb).
Qed.

Lemma within_in {R} (img img2 : canvas R) b d : same_size img img2 -> valid_box d ->
  corners_within (box_of (Size (cw img) (ch img))) b -> corners_within b d -> box_in img2 d.
Proof.
  intros [S1 S2] Hv (C1 & C2 & C3 & C4) (D1 & D2 & D3 & D4). split; [assumption|].
  cbn [box_of bpos bsize px py width height] in *. lia.
Qed.

Lemma fill_area_ok {R P} (ops : pixel_ops R P) no_blending junk raw color area (img : canvas R) :
  int_size (Size (cw img) (ch img)) -> int_size (bsize area) -> legal_pos (bpos area) ->
  exists img', writer_fill ops no_blending junk raw color area img = Some img' /\
    area_becomes img area (fun _ _ old => if no_blending then raw else paint ops true (fade ops color) old) img'.
Proof.
  intros Hi Hs (Hp & N1 & N2). unfold writer_fill. destruct area as [p sz]. cbn [bpos bsize] in *.
  destruct (clip_ok (Size (cw img) (ch img)) p sz Hi Hs Hp N1 N2) as (r & b & E & Hf & Ht). rewrite E. cbn [obind].
  destruct r; cbn [negb].
  2:{ exists img. split; [reflexivity|]. apply area_same. intros x y Hx Hy. now apply Hf. }
  destruct (Ht eq_refl) as (Hv & Hw & _ & _ & _ & _ & Hb). clear Ht Hf.
  destruct no_blending.
  - destruct (fill_ok img (box_tray b) raw) as (img' & Ef & B).
    { apply box_tray_ok. eapply within_in; [split; reflexivity|exact Hv|exact Hw|].
      unfold corners_within. lia. }
    exists img'. split; [exact Ef|]. eapply changes_area; [eapply becomes_changes; [exact B|reflexivity]|]. exact Hb.
  - destruct (each_subdivide img (fun _ _ old => paint ops true (fade ops color) old)
      (fun sub img =>
        let work := Canvas (width (bsize sub)) (height (bsize sub)) (fun _ _ => fade ops color) in
        let? c := blend_block ops junk (bpos sub) work (whole work) img in
        image_write (enc ops) (bpos sub) c (whole c) img) b Hv) as (img' & Ee & Hc).
    + intros d c Hvd Hwd Hsz. cbv zeta.
      set (work := Canvas (width (bsize d)) (height (bsize d)) (fun _ _ => fade ops color)).
      destruct (whole_ok work (bsize d)) as [Hwk Hws]; [now apply valid_int_size|reflexivity|reflexivity|].
      apply (blend_write_ok ops junk d work (whole work) c (fun _ _ => fade ops color)); try assumption.
      * eapply within_in; eassumption.
      * reflexivity.
    + exists img'. split; [exact Ee|]. eapply changes_area; [exact Hc|]. exact Hb.
Qed.

Lemma put_image_ok {R P} (ops : pixel_ops R P) lossless blending copy junk (s : source P) hm vm bg p b (img : canvas R) :
  int_size (Size (cw img) (ch img)) -> source_ok s -> valid_box b -> legal_pos p ->
  exists img', put_image ops lossless blending copy junk s hm vm bg p b img = Some img' /\
    area_becomes img (Box p (bsize b)) (fun x y old =>
      let q := extended s hm vm bg (px (bpos b) + (x - px p)) (py (bpos b) + (y - py p)) in
      if lossless then copy q else paint ops blending (fade ops q) old) img'.
Proof.
  intros Hi Hs Hvb (Hp & N1 & N2). unfold put_image.
  destruct (clip_ok (Size (cw img) (ch img)) p (bsize b) Hi (valid_int_size b Hvb) Hp N1 N2) as (r & e & E & Hf & Ht).
  rewrite E. cbn [obind]. destruct r; cbn [negb].
  2:{ exists img. split; [reflexivity|]. apply area_same. intros x y Hx Hy. now apply Hf. }
  destruct (Ht eq_refl) as (Hv & Hw & K1 & K2 & K3 & K4 & Hb). clear Ht Hf.
  set (q := fun x y => extended s hm vm bg (px (bpos b) + (x - px p)) (py (bpos b) + (y - py p))).
  match goal with |- context [each _ ?act img] =>
    destruct (each_subdivide img (fun x y old => if lossless then copy (q x y) else paint ops blending (fade ops (q x y)) old)
      act e Hv) as (img' & Ee & Hc) end.
  - intros d c Hvd Hwd Hsz. pose proof Hvd as (V1 & V2 & V3 & V4 & V5 & V6).
    pose proof Hvb as (U1 & U2 & U3 & U4 & U5 & U6). pose proof Hwd as (W1 & W2 & W3 & W4).
    pose proof Hv as (T1 & T2 & T3 & T4 & T5 & T6). destruct Hp as ((P1 & P2) & (P3 & P4)).
    assert (Hin : box_in c d) by (eapply within_in; eassumption).
    unfold pos_diff. rewrite !isub_ok by lia. cbn [obind]. unfold pos_add. cbn [width height]. rewrite !iadd_ok by lia. cbn [obind].
    set (work := Canvas (width (bsize d)) (height (bsize d)) junk).
    destruct (whole_ok work (bsize d)) as [Hwk Hws]; [now apply valid_int_size|reflexivity|reflexivity|].
    destruct (read_e_ok s hm vm bg (Pos (px (bpos b) + (px (bpos d) - px p)) (py (bpos b) + (py (bpos d) - py p)))
      (whole work) work Hs) as (w2 & E2 & (A1 & A2 & A3 & _)).
    { unfold int_pos. cbn [px py]. lia. } { assumption. }
    rewrite E2. cbn [obind].
    assert (Hq : forall x y, 0 <= x < width (bsize d) -> 0 <= y < height (bsize d) ->
      cpix w2 (0 + x) (0 + y) = q (px (bpos d) + x) (py (bpos d) + y)).
    { intros x y Hx Hy. rewrite A3 by (unfold in_tray; rewrite Hws; cbn [whole tx ty]; lia). cbn [px py whole tx ty].
      unfold q. f_equal; lia. }
    destruct lossless.
    + destruct (whole_ok w2 (bsize d)) as [H2 H2s]; [now apply valid_int_size|assumption|assumption|].
      destruct (image_write_ok copy d w2 (whole w2) c Hin H2 H2s) as (c' & Ec & B).
      exists c'. split; [exact Ec|]. eapply becomes_changes; [exact B|]. cbn beta. intros x y Hx Hy. cbn [whole tx ty].
      now rewrite Hq.
    + set (w3 := Canvas (cw w2) (ch w2) (fun x y => fade ops (cpix w2 x y))).
      destruct (whole_ok w3 (bsize d)) as [H3 H3s]; [now apply valid_int_size|assumption|assumption|].
      apply (write_b_ok ops blending junk d w3 (whole w3) c (fun x y => fade ops (q x y)) Hin H3 H3s).
      intros x y Hx Hy. cbn [whole tx ty w3 cpix]. now rewrite Hq.
  - exists img'. split; [exact Ee|]. eapply changes_area; [exact Hc|]. exact Hb.
Qed.

Lemma put_block_ok {Q R P} (ops : pixel_ops R P) direct blending (copy : Q -> R) (conv : Q -> P) junk p
  (block : canvas Q) t (img : canvas R) :
  int_size (Size (cw img) (ch img)) -> tray_ok block t -> legal_pos p ->
  exists img', put_block ops direct blending copy conv junk p block t img = Some img' /\
    area_becomes img (Box p (tsize t)) (fun x y old =>
      let q := cpix block (tx t + (x - px p)) (ty t + (y - py p)) in
      if direct then copy q else paint ops blending (fade ops (conv q)) old) img'.
Proof.
  intros Hi Ht (Hp & N1 & N2). unfold put_block.
  pose proof Ht as (Hts & Htx & Hty & Htw & Hth).
  destruct (clip_ok (Size (cw img) (ch img)) p (tsize t) Hi Hts Hp N1 N2) as (r & e & E & Hf & Hok).
  rewrite E. cbn [obind]. destruct r; cbn [negb].
  2:{ exists img. split; [reflexivity|]. apply area_same. intros x y Hx Hy. now apply Hf. }
  destruct (Hok eq_refl) as (Hv & Hw & K1 & K2 & K3 & K4 & Hb). clear Hok Hf.
  destruct Hts as ((S1 & S2) & (S3 & S4)). pose proof Hv as (T1 & T2 & T3 & T4 & T5 & T6).
  destruct Hp as ((P1 & P2) & (P3 & P4)).
  set (q := fun x y => cpix block (tx t + (x - px p)) (ty t + (y - py p))).
  destruct direct.
  - rewrite subtray_ok by lia. cbn [obind].
    set (u := Tray (tx t + (px (bpos e) - px p)) (ty t + (py (bpos e) - py p)) (bsize e)).
    destruct (image_write_ok copy e block u img) as (img' & Ew & B).
    { eapply within_in; [split; reflexivity|exact Hv|exact Hw|]. unfold corners_within. lia. }
    { unfold tray_ok, int_size, u. cbn [tx ty tsize]. lia. }
    { reflexivity. }
    exists img'. split; [exact Ew|]. eapply changes_area; [eapply becomes_changes; [exact B|]|exact Hb].
    cbn beta. intros x y Hx Hy. cbn [u tx ty]. unfold q. do 2 f_equal; lia.
  - match goal with |- context [each _ ?act img] =>
      destruct (each_subdivide img (fun x y old => paint ops blending (fade ops (conv (q x y))) old)
        act e Hv) as (img' & Ee & Hc) end.
    + intros d c Hvd Hwd Hsz. pose proof Hvd as (V1 & V2 & V3 & V4 & V5 & V6). pose proof Hwd as (W1 & W2 & W3 & W4).
      assert (Hin : box_in c d) by (eapply within_in; eassumption).
      rewrite subtray_ok by lia. cbn [obind tsize tx ty].
      set (w0 := Canvas (width (bsize d)) (height (bsize d)) junk).
      destruct (loop2_px w0 (Tray 0 0 (bsize d)) (fun x y => fade ops (conv (q (px (bpos d) + x) (py (bpos d) + y))))
        (fun x y c0 =>
          let? v := get_px block (tx t + (px (bpos d) - px p) + x) (ty t + (py (bpos d) - py p) + y) in
          set_px c0 x y (fade ops (conv v)))) as (w1 & E1 & (A1 & A2 & A3 & _)).
      { unfold tray_ok, int_size. cbn [tx ty tsize w0 cw ch]. lia. }
      { cbn [tx ty tsize]. intros x y c1 Hx Hy _ _. rewrite get_px_ok by lia. cbn [obind]. unfold q.
        rewrite !Z.add_0_l. do 3 f_equal. f_equal; lia. }
      cbn [tsize] in E1. rewrite E1. cbn [obind].
      destruct (whole_ok w1 (bsize d)) as [H3 H3s]; [now apply valid_int_size|assumption|assumption|].
      apply (write_b_ok ops blending junk d w1 (whole w1) c (fun x y => fade ops (conv (q x y))) Hin H3 H3s).
      intros x y Hx Hy. cbn [whole tx ty]. rewrite A3 by (unfold in_tray; cbn [tx ty tsize]; lia). cbn [tx ty].
      do 3 f_equal; lia.
    + exists img'. split; [exact Ee|]. eapply changes_area; [exact Hc|]. exact Hb.
Qed.
