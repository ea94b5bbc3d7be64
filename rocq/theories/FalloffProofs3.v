(* Lemmas on Reader::read_e as a whole *)
From Coq Require Import ZArith Bool List Lia.
From Verif Require Import CInt IntModel IntProofs3 PixelBoxModel PixelBoxSpec PixelBoxProps.
From Verif Require Import FalloffModel FalloffSpec FalloffProofs FalloffProofs2.
From Verif Require Import ArrLib.
Import ListNotations.
Open Scope Z_scope.

Definition pick {P} (s : source P) (bg : P) (ox oy : option Z) : P :=
  match oy with
  | Some y => match ox with Some x => color_at s bg x y | None => bg end
  | None => bg
  end.

Lemma extended_pick {P} (s : source P) hm vm bg x y :
  0 < width (source_size s) -> 0 < height (source_size s) ->
  extended s hm vm bg x y = pick s bg (src hm (width (source_size s)) x) (src vm (height (source_size s)) y).
Proof.
  intros Hw Hh. unfold extended. replace (width (source_size s) =? 0) with false by lia.
  replace (height (source_size s) =? 0) with false by lia. cbn [orb]. rewrite extend_src.
  unfold pick. destruct (src vm (height (source_size s)) y); [apply extend_src|reflexivity].
Qed.

Lemma extended_alt_pick {P} (s : source P) hm vm bg x y :
  0 < width (source_size s) -> 0 < height (source_size s) ->
  extended_alt s hm vm bg x y = pick s bg (src hm (width (source_size s)) x) (src vm (height (source_size s)) y).
Proof.
  intros Hw Hh. unfold extended_alt. replace (width (source_size s) =? 0) with false by lia.
  replace (height (source_size s) =? 0) with false by lia. cbn [orb]. rewrite extend_src.
  unfold pick. destruct (src hm (width (source_size s)) x) as [x'|].
  - rewrite extend_src. reflexivity.
  - destruct (src vm (height (source_size s)) y); reflexivity.
Qed.

Section Quads.
Context {P : Type} (c0 : canvas P) (t : tray) (s : source P) (bg : P) (hm vm : mode).
Hypothesis Ht : tray_ok c0 t.
Let iw := width (source_size s).
Let ih := height (source_size s).
Hypothesis Hiw : 0 < iw < 2 ^ 31.
Hypothesis Hih : 0 < ih < 2 ^ 31.
Variables (p : pos) (rx ry gx gy gw gh : Z).
Hypothesis Hx : adjusted hm iw (px p) (width (tsize t)) rx gx gw.
Hypothesis Hy : adjusted vm ih (py p) (height (tsize t)) ry gy gh.

Let F (x y : Z) : P := pick s bg (src hm iw (rx + x)) (src vm ih (ry + y)).

Ltac bounds := destruct Ht as (((?B1 & ?B2) & (?B3 & ?B4)) & ?B5 & ?B6 & ?B7 & ?B8);
  destruct Hx as [?X1 ?X2 ?X3 ?X4 ?X5 _ ?X6 _ _ _ _ _]; destruct Hy as [?Y1 ?Y2 ?Y3 ?Y4 ?Y5 _ ?Y6 _ _ _ _ _].

Lemma pick_in x y x' y' : src hm iw (rx + x) = Some x' -> src vm ih (ry + y) = Some y' ->
  color_at s bg x' y' = F x y.
Proof. intros Ex Ey. unfold F, pick. now rewrite Ex, Ey. Qed.

Lemma src_main_x x : 0 <= gx + x < iw -> src hm iw (rx + (gx - rx + x)) = Some (gx + x).
Proof. intros H. rewrite src_in by lia. f_equal. lia. Qed.

Lemma src_main_y y : 0 <= gy + y < ih -> src vm ih (ry + (gy - ry + y)) = Some (gy + y).
Proof. intros H. rewrite src_in by lia. f_equal. lia. Qed.

Lemma src_wrap m n i j : m = Repeat -> 0 <= j < n -> i = n + j -> src m n i = Some j.
Proof.
  intros -> Hj ->. rewrite src_repeat by lia. f_equal. rewrite Z.add_comm.
  replace (j + n) with (j + 1 * n) by lia. rewrite Z_mod_plus_full. apply Z.mod_small. lia.
Qed.

Lemma quads_ok c : good c0 t F (fun _ _ => False) c ->
  exists c', read_quads s bg t (Pos rx ry) (Box (Pos gx gy) (Size gw gh)) c = Some c' /\
    good c0 t F (fun x y => in_col gw (gx - rx) x /\ in_row gh (gy - ry) y) c'.
Proof.
  intros Hg. bounds. unfold read_quads, in_col, in_row. cbn [bpos bsize px py width height].
  fold iw ih. rewrite (isub_ok iw gx), (isub_ok ih gy) by lia. cbn [obind].
  assert (Mh : Z.min (iw - gx) gw < gw -> hm = Repeat) by (destruct hm; [..|reflexivity]; intros; exfalso;
    assert (gx + gw <= iw) by (apply X6; discriminate); lia).
  assert (Mv : Z.min (ih - gy) gh < gh -> vm = Repeat) by (destruct vm; [..|reflexivity]; intros; exfalso;
    assert (gy + gh <= ih) by (apply Y6; discriminate); lia).
  remember (Z.min (iw - gx) gw) as mw. remember (Z.min (ih - gy) gh) as mh.
  rewrite subtray_ok by (cbn [px py bpos]; lia). cbn [obind px py bpos bsize].
  destruct (step_read c0 t F Ht c (fun _ _ => False)
    (fun x y => gx - rx <= x < gx - rx + mw /\ gy - ry <= y < gy - ry + mh)
    (gx - rx) (gy - ry) (Size mw mh) s bg (Pos gx gy) Hg) as (c1 & E1 & Hg1);
    cbn [width height px py]; fold iw ih; try lia.
  { intros x y Hx1 Hy1. apply pick_in; [apply src_main_x; lia|apply src_main_y; lia]. }
  rewrite E1. cbn [obind].
  assert (E2 : exists c2, (if mw <? gw then
      let? w := isub gw mw in
      let? q := pos_add (Pos 0 gy) (Size iw 0) in
      let? u := subtray t (Box q (Size w mh)) (Pos rx ry) in
      read s bg (Pos 0 gy) u c1
    else Some c1) = Some c2 /\
    good c0 t F (fun x y => gx - rx <= x < gx - rx + gw /\ gy - ry <= y < gy - ry + mh) c2).
  { destruct (mw <? gw) eqn:E.
    - assert (Em : hm = Repeat) by (apply Mh; lia).
      rewrite isub_ok by lia. cbn [obind]. unfold pos_add. cbn [px py width height]. rewrite !iadd_ok by lia. cbn [obind].
      rewrite subtray_ok by (cbn [px py bpos]; lia). cbn [obind px py bpos bsize].
      apply (step_read c0 t F Ht c1 (fun x y => gx - rx <= x < gx - rx + mw /\ gy - ry <= y < gy - ry + mh));
        cbn [width height px py]; fold iw ih; try lia; try assumption.
      intros x y Hx1 Hy1. apply pick_in.
      + apply src_wrap; [assumption|lia|lia].
      + replace (gy + 0) with gy by lia. apply src_main_y. lia.
    - exists c1. split; [reflexivity|]. eapply good_weaken; [exact Hg1|]. cbn beta. intros. lia. }
  destruct E2 as (c2 & E2 & Hg2). rewrite E2. cbn [obind].
  assert (E3 : exists c3, (if mh <? gh then
      let? h := isub gh mh in
      let? q := pos_add (Pos gx 0) (Size 0 ih) in
      let? u := subtray t (Box q (Size mw h)) (Pos rx ry) in
      read s bg (Pos gx 0) u c2
    else Some c2) = Some c3 /\
    good c0 t F (fun x y => (gx - rx <= x < gx - rx + gw /\ gy - ry <= y < gy - ry + mh) \/
      (gx - rx <= x < gx - rx + mw /\ gy - ry <= y < gy - ry + gh)) c3).
  { destruct (mh <? gh) eqn:E.
    - assert (Em : vm = Repeat) by (apply Mv; lia).
      rewrite isub_ok by lia. cbn [obind]. unfold pos_add. cbn [px py width height]. rewrite !iadd_ok by lia. cbn [obind].
      rewrite subtray_ok by (cbn [px py bpos]; lia). cbn [obind px py bpos bsize].
      apply (step_read c0 t F Ht c2 (fun x y => gx - rx <= x < gx - rx + gw /\ gy - ry <= y < gy - ry + mh));
        cbn [width height px py]; fold iw ih; try lia; try assumption.
      intros x y Hx1 Hy1. apply pick_in.
      + replace (gx + 0) with gx by lia. apply src_main_x. lia.
      + apply src_wrap; [assumption|lia|lia].
    - exists c2. split; [reflexivity|]. eapply good_weaken; [exact Hg2|]. cbn beta. intros. lia. }
  destruct E3 as (c3 & E3 & Hg3). rewrite E3. cbn [obind].
  destruct ((mw <? gw) && (mh <? gh)) eqn:E.
  - apply andb_true_iff in E. destruct E as [Ea Eb].
    assert (Em1 : hm = Repeat) by (apply Mh; lia). assert (Em2 : vm = Repeat) by (apply Mv; lia).
    unfold size_sub. cbn [width height]. rewrite !isub_ok by lia. cbn [obind].
    unfold pos_add. cbn [px py]. fold iw ih. rewrite !iadd_ok by lia. cbn [obind].
    rewrite subtray_ok by (cbn [px py bpos]; lia). cbn [obind px py bpos bsize].
    apply (step_read c0 t F Ht c3 (fun x y => (gx - rx <= x < gx - rx + gw /\ gy - ry <= y < gy - ry + mh) \/
      (gx - rx <= x < gx - rx + mw /\ gy - ry <= y < gy - ry + gh)));
      cbn [width height px py]; fold iw ih; try lia; try assumption.
    intros x y Hx1 Hy1. apply pick_in; (apply src_wrap; [assumption|lia|lia]).
  - exists c3. split; [reflexivity|]. apply andb_false_iff in E. eapply good_weaken; [exact Hg3|]. cbn beta. intros. lia.
Qed.

(* everything after adjust *)
Lemma rest_ok :
  exists c', (let? c := read_quads s bg t (Pos rx ry) (Box (Pos gx gy) (Size gw gh)) c0 in
    let? diff := pos_diff (Pos gx gy) (Pos rx ry) in
    let? rel_1 := pos_add (Pos 0 0) diff in
    let? rel_2 := pos_add rel_1 (Size gw gh) in
    let? c := expand_horz hm iw bg t (Size gw gh) (px rel_1) (py rel_1) (px rel_2) c in
    let? _ := (match vm with
               | Edge => if py rel_2 <? height (tsize t)
                         then let? d := iadd (width diff) gw in let? _ := isub d 1 in Some tt else Some tt
               | _ => Some tt
               end) in
    expand_vert vm ih bg t (Size gw gh) (py rel_1) (py rel_2) c) = Some c' /\
    tray_becomes c0 t F c'.
Proof.
  destruct (quads_ok c0 (good_start c0 t F)) as (c1 & E1 & Hg1). rewrite E1. cbn [obind].
  bounds. unfold pos_diff. cbn [px py]. rewrite !isub_ok by lia. cbn [obind].
  unfold pos_add. cbn [px py width height]. rewrite !iadd_ok by lia. cbn [obind px py].
  rewrite !iadd_ok by lia. cbn [obind px py]. rewrite !Z.add_0_l.
  destruct Hx as [_ _ _ _ _ _ _ A1 A2 A3 A4 A5]. destruct Hy as [_ _ _ _ _ _ _ D1 D2 D3 D4 D5].
  destruct (expand_horz_ok c0 t F Ht gw gh (gx - rx) (gy - ry)) with (m := hm) (n := iw) (bg := bg) (c := c1)
    as (c2 & E2 & Hg2); try lia; try assumption.
  - intros Em x y Hx1 Hn. unfold F. rewrite (A1 Em) by assumption. unfold pick. now destruct (src vm ih (ry + y)).
  - intros Em x y Hx1. unfold F. rewrite (A2 Em) by assumption. replace (rx + (gx - rx)) with gx by lia. reflexivity.
  - intros Em x y Hx1. unfold F. rewrite (A3 Em) by assumption.
    replace (rx + (gx - rx + gw - 1)) with (gx + gw - 1) by lia. reflexivity.
  - intros Em x y Hx1 Hx2. unfold F. rewrite Em.
    replace (rx + (x + iw)) with (rx + x + 1 * iw) by lia. rewrite src_period by lia. reflexivity.
  - rewrite E2. cbn [obind].
    match goal with |- context [obind (match vm with Background => _ | Edge => ?e | Repeat => _ end) _] =>
      assert (E3 : (match vm with Background => Some tt | Edge => e | Repeat => Some tt end) = Some tt) end.
    { destruct vm; try reflexivity. destruct (gy - ry + gh <? height (tsize t)); [|reflexivity].
      rewrite isub_ok by lia. reflexivity. }
    rewrite E3. cbn [obind].
    destruct (expand_vert_ok c0 t F Ht gw gh (gy - ry)) with (m := vm) (n := ih) (bg := bg) (c := c2)
      as (c3 & E4 & Hg3); try lia; try assumption.
    + intros Em x y Hy1 Hn. unfold F. rewrite (D1 Em) by assumption. reflexivity.
    + intros Em x y Hy1. unfold F. rewrite (D2 Em) by assumption. replace (ry + (gy - ry)) with gy by lia. reflexivity.
    + intros Em x y Hy1. unfold F. rewrite (D3 Em) by assumption.
      replace (ry + (gy - ry + gh - 1)) with (gy + gh - 1) by lia. reflexivity.
    + intros Em x y Hy1 Hy2. unfold F. rewrite Em.
      replace (ry + (y + ih)) with (ry + y + 1 * ih) by lia. rewrite src_period by lia. reflexivity.
    + exists c3. split; [exact E4|]. eapply good_done; [exact Hg3|]. intros; exact I.
Qed.

End Quads.

Lemma tray_becomes_ext {P} (c c' : canvas P) t f g : tray_becomes c t f c' ->
  (forall x y, 0 <= x < width (tsize t) -> 0 <= y < height (tsize t) -> f x y = g x y) -> tray_becomes c t g c'.
Proof.
  intros (A & B & C & D) H. split; [assumption|]. split; [assumption|]. split; [|assumption].
  intros x y Hd. rewrite C by assumption. unfold in_tray in Hd. apply H; lia.
Qed.

Lemma contained_ok p sz isz : int_pos p -> int_size sz -> int_size isz ->
  exists r, contained_in (Box p sz) (box_of isz) = Some r /\
    (r = true <-> 0 <= px p /\ 0 <= py p /\ px p + width sz <= width isz /\ py p + height sz <= height isz).
Proof.
  intros ((P1 & P2) & (P3 & P4)) ((S1 & S2) & (S3 & S4)) ((I1 & I2) & (I3 & I4)).
  unfold contained_in, contains, contains_dim, box_of. cbn [bpos bsize px py width height].
  assert (Hd : forall q w n, - 2 ^ 31 <= q < 2 ^ 31 -> 0 <= w < 2 ^ 31 -> 0 <= n < 2 ^ 31 ->
    (if (0 <=? q) && (w <=? n) then let? d := isub q 0 in let? r := isub n w in Some (d <=? r) else Some false) =
    Some ((0 <=? q) && (q + w <=? n))).
  { intros q w n Hq Hw Hn. destruct ((0 <=? q) && (w <=? n)) eqn:E.
    - apply andb_true_iff in E. rewrite !isub_ok by lia. cbn [obind]. f_equal.
      replace (0 <=? q) with true by lia. cbn [andb]. apply eq_true_iff_eq. rewrite !Z.leb_le. lia.
    - f_equal. symmetry. apply andb_false_iff in E. apply andb_false_iff. lia. }
  rewrite (Hd (px p) (width sz) (width isz)) by lia. cbn [obind].
  rewrite (Hd (py p) (height sz) (height isz)) by lia. cbn [obind].
  eexists. split; [reflexivity|]. rewrite !andb_true_iff, !Z.leb_le. lia.
Qed.

Lemma contains_ok b o : 
  - 2 ^ 31 <= px (bpos o) - px (bpos b) < 2 ^ 31 -> - 2 ^ 31 <= py (bpos o) - py (bpos b) < 2 ^ 31 ->
  - 2 ^ 31 <= width (bsize b) - width (bsize o) < 2 ^ 31 -> - 2 ^ 31 <= height (bsize b) - height (bsize o) < 2 ^ 31 ->
  corners_within b o -> 0 <= width (bsize o) -> 0 <= height (bsize o) -> contains b o = Some true.
Proof.
  intros H1 H2 H3 H4 (C1 & C2 & C3 & C4) Hw Hh. unfold contains, contains_dim.
  replace (px (bpos b) <=? px (bpos o)) with true by lia.
  replace (width (bsize o) <=? width (bsize b)) with true by lia. cbn [andb].
  rewrite !isub_ok by lia. cbn [obind].
  replace (py (bpos b) <=? py (bpos o)) with true by lia.
  replace (height (bsize o) <=? height (bsize b)) with true by lia. cbn [andb obind]. f_equal.
  apply andb_true_iff. lia.
Qed.

Lemma read_e_ok {P} (s : source P) hm vm bg p t (c : canvas P) :
  source_ok s -> int_pos p -> tray_ok c t ->
  exists c', read_e s hm vm bg p t c = Some c' /\
    tray_becomes c t (fun x y => extended s hm vm bg (px p + x) (py p + y)) c'.
Proof.
  intros Hs Hp Ht. unfold read_e. pose proof Ht as (Hts & Htx & Hty & Htw & Hth).
  destruct (contained_ok p (tsize t) (source_size s) Hp Hts Hs) as (r & Er & Hr). rewrite Er. cbn [obind].
  pose proof Hs as ((Hs1 & Hs2) & (Hs3 & Hs4)). pose proof Hts as ((Ht1 & Ht2) & (Ht3 & Ht4)).
  pose proof Hp as ((Hp1 & Hp2) & (Hp3 & Hp4)).
  destruct r.
  - destruct (proj1 Hr eq_refl) as (R1 & R2 & R3 & R4).
    destruct (read_ok s bg p t c Ht R1 R2 R3 R4) as (c' & E & B).
    exists c'. split; [exact E|]. eapply tray_becomes_ext; [exact B|]. cbn beta. intros x y Hx Hy.
    rewrite extended_pick by lia. rewrite !src_in by lia. reflexivity.
  - clear Hr Er. destruct (size_empty (tsize t)) eqn:Ee.
    + exists c. split; [reflexivity|]. unfold size_empty in Ee. apply orb_true_iff in Ee.
      split; [reflexivity|]. split; [reflexivity|]. split; [|reflexivity]. unfold in_tray. intros. lia.
    + unfold size_empty in Ee. apply orb_false_iff in Ee. rewrite !Z.eqb_neq in Ee.
      assert (Hall : (forall x y, 0 <= x < width (tsize t) -> 0 <= y < height (tsize t) ->
          extended s hm vm bg (px p + x) (py p + y) = bg) ->
        exists c', bgcolor_fill t bg (Pos 0 0) (tsize t) c = Some c' /\
          tray_becomes c t (fun x y => extended s hm vm bg (px p + x) (py p + y)) c').
      { intros Hb.
        destruct (step_fill c t (fun x y => extended s hm vm bg (px p + x) (py p + y)) Ht c (fun _ _ => False) (fun _ _ => True)
          0 0 (tsize t) bg (good_start _ _ _)) as (c' & E & Hg); cbn beta; try lia.
        - intros x y Hx Hy. symmetry. rewrite !Z.add_0_l. apply Hb; assumption.
        - exists c'. split; [exact E|]. eapply good_done; [exact Hg|]. intros; exact I. }
      destruct (size_empty (source_size s)) eqn:Ei.
      { apply Hall. intros x y _ _. unfold extended. unfold size_empty in Ei. now rewrite Ei. }
      unfold size_empty in Ei. apply orb_false_iff in Ei. rewrite !Z.eqb_neq in Ei.
      destruct (adjust_ok hm (width (source_size s)) (px p) (width (tsize t))) as (ah & Eh & Hh); try lia.
      rewrite Eh. cbn [obind]. destruct ah as [[[rx gx] gw]|].
      2:{ apply Hall. intros x y Hx Hy. rewrite extended_pick by lia. rewrite (proj2 Hh) by assumption.
          unfold pick. now destruct (src vm (height (source_size s)) (py p + y)). }
      destruct (adjust_ok vm (height (source_size s)) (py p) (height (tsize t))) as (av & Ev & Hv); try lia.
      rewrite Ev. cbn [obind]. destruct av as [[[ry gy] gh]|].
      2:{ apply Hall. intros x y Hx Hy. rewrite extended_pick by lia. rewrite (proj2 Hv) by assumption. reflexivity. }
      assert (Hh2 := Hh). assert (Hv2 := Hv).
      destruct Hh2 as [X1 X2 X3 X4 X5 X7 X6 _ _ _ _ _]. destruct Hv2 as [Y1 Y2 Y3 Y4 Y5 Y7 Y6 _ _ _ _ _].
      destruct (contained_ok (Pos gx gy) (Size 0 0) (source_size s)) as (r1 & Er1 & Hr1).
      { unfold int_pos. cbn. lia. } { unfold int_size. cbn. lia. } { assumption. }
      rewrite Er1. cbn [obind]. replace r1 with true by (symmetry; apply Hr1; cbn; lia). cbn [assert obind].
      unfold size_empty, size_contains. cbn [width height].
      replace (gw =? 0) with false by lia. replace (gh =? 0) with false by lia. cbn [orb negb assert obind].
      replace (gw <=? width (source_size s)) with true by lia. replace (gh <=? height (source_size s)) with true by lia.
      cbn [andb assert obind].
      rewrite contains_ok by (unfold corners_within; cbn [bpos bsize px py width height]; lia). cbn [obind assert].
      destruct (rest_ok c t s bg hm vm Ht) with (p := p) (rx := rx) (ry := ry) (gx := gx) (gy := gy) (gw := gw) (gh := gh)
        as (c' & E & B); try assumption; try lia.
      exists c'. split; [exact E|]. eapply tray_becomes_ext; [exact B|]. cbn beta. intros x y Hx Hy.
      rewrite extended_pick by lia. rewrite X7, Y7 by assumption. reflexivity.
Qed.
