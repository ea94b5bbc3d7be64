(* Lemmas on loops over blocks of pixels *)
From Coq Require Import ZArith Bool List Lia.
From Verif Require Import CInt IntModel PixelBoxModel PixelBoxSpec PixelBoxProps FalloffModel FalloffSpec.
From Verif Require Import ArrLib.
Import ListNotations.
Open Scope Z_scope.

Lemma iadd_ok a b : - 2 ^ 31 <= a + b < 2 ^ 31 -> iadd a b = Some (a + b).
Proof.
  intros H. unfold iadd. replace (in_rangeb t_int (a + b)) with true; [reflexivity|].
  symmetry. apply in_rangeb_spec. unfold in_range, imin, imax, t_int. cbn in *. lia.
Qed.

Lemma loop_inv {S} (I : Z -> S -> Prop) f n : forall i s, I i s ->
  (forall j s, i <= j < i + Z.of_nat n -> I j s -> exists s', f j s = Some s' /\ I (j + 1) s') ->
  exists s', loop n i f s = Some s' /\ I (i + Z.of_nat n) s'.
Proof.
  induction n as [|n IH]; intros i s H Hf; cbn [loop].
  - exists s. replace (i + Z.of_nat 0) with i by lia. auto.
  - destruct (Hf i s) as (s1 & E & H1); [lia|assumption|]. rewrite E. cbn [obind].
    destruct (IH (i + 1) s1 H1) as (s2 & E2 & H2).
    + intros j s' Hj Hi. apply Hf; [lia|assumption].
    + exists s2. replace (i + Z.of_nat (Datatypes.S n)) with (i + 1 + Z.of_nat n) by lia. auto.
Qed.

Definition done (t : tray) (x y X Y : Z) : Prop :=
  in_tray t X Y /\ (Y - ty t < y \/ (Y - ty t = y /\ X - tx t < x)).

Definition same_size {P} (c c' : canvas P) := cw c' = cw c /\ ch c' = ch c.

Lemma done_dec t x y X Y : {done t x y X Y} + {~ done t x y X Y}.
Proof.
  unfold done, in_tray.
  destruct (Z_le_dec (tx t) X); [|right; lia]. destruct (Z_lt_dec X (tx t + width (tsize t))); [|right; lia].
  destruct (Z_le_dec (ty t) Y); [|right; lia]. destruct (Z_lt_dec Y (ty t + height (tsize t))); [|right; lia].
  destruct (Z_lt_dec (Y - ty t) y); [left; lia|]. destruct (Z.eq_dec (Y - ty t) y); [|right; lia].
  destruct (Z_lt_dec (X - tx t) x); [left|right]; lia.
Qed.

Lemma in_tray_dec t X Y : {in_tray t X Y} + {~ in_tray t X Y}.
Proof.
  unfold in_tray.
  destruct (Z_le_dec (tx t) X); [|right; lia]. destruct (Z_lt_dec X (tx t + width (tsize t))); [|right; lia].
  destruct (Z_le_dec (ty t) Y); [|right; lia]. destruct (Z_lt_dec Y (ty t + height (tsize t))); [left; lia|right; lia].
Qed.

Lemma set_px_ok {P} (c : canvas P) x y p : 0 <= x < cw c -> 0 <= y < ch c ->
  set_px c x y p = Some (Canvas (cw c) (ch c) (fun x' y' => if (x' =? x) && (y' =? y) then p else cpix c x' y')).
Proof.
  intros Hx Hy. unfold set_px, inside.
  replace ((0 <=? x) && (x <? cw c) && (0 <=? y) && (y <? ch c)) with true by (symmetry; rewrite !andb_true_iff; lia).
  reflexivity.
Qed.

Lemma get_px_ok {P} (c : canvas P) x y : 0 <= x < cw c -> 0 <= y < ch c -> get_px c x y = Some (cpix c x y).
Proof.
  intros Hx Hy. unfold get_px, inside.
  replace ((0 <=? x) && (x <? cw c) && (0 <=? y) && (y <? ch c)) with true by (symmetry; rewrite !andb_true_iff; lia).
  reflexivity.
Qed.

Lemma loop2_px {P} (c0 : canvas P) t g f : tray_ok c0 t ->
  (forall x y c, 0 <= x < width (tsize t) -> 0 <= y < height (tsize t) -> same_size c0 c ->
     (forall X Y, ~ in_tray t X Y -> cpix c X Y = cpix c0 X Y) ->
     f x y c = set_px c (tx t + x) (ty t + y) (g x y)) ->
  exists c', loop2 (tsize t) f c0 = Some c' /\ tray_becomes c0 t g c'.
Proof.
  intros (Hs & Hx0 & Hy0 & Hx1 & Hy1) Hf. unfold loop2. destruct Hs as (Hw & Hh).
  set (I := fun (x y : Z) (c : canvas P) => same_size c0 c /\
         forall X Y, (done t x y X Y -> cpix c X Y = g (X - tx t) (Y - ty t)) /\
                     (~ done t x y X Y -> cpix c X Y = cpix c0 X Y)).
  destruct (loop_inv (fun y c => I 0 y c)
    (fun y c => loop (Z.to_nat (width (tsize t))) 0 (fun x c => f x y c) c)
    (Z.to_nat (height (tsize t))) 0 c0) as (c' & E & Hc).
  - split; [split; reflexivity|]. intros X Y. split; [|reflexivity].
    unfold done, in_tray. lia.
  - intros y c Hy Hc.
    destruct (loop_inv (fun x c => I x y c) (fun x c => f x y c) (Z.to_nat (width (tsize t))) 0 c Hc)
      as (c' & E & Hc').
    + intros x c1 Hx [Hsz Hpx]. rewrite (Hf x y c1); [|lia|lia|assumption|].
      2:{ intros X Y Hn. apply Hpx. unfold done. tauto. }
      destruct Hsz as [Hsw Hsh].
      rewrite set_px_ok by lia. eexists. split; [reflexivity|]. split; [split; cbn; assumption|].
      intros X Y. cbn [cpix]. destruct ((X =? tx t + x) && (Y =? ty t + y)) eqn:E.
      * apply andb_true_iff in E. destruct E as [E1 E2]. apply Z.eqb_eq in E1, E2. subst X Y.
        replace (tx t + x - tx t) with x by lia. replace (ty t + y - ty t) with y by lia.
        split; [reflexivity|]. intros Hn. exfalso. apply Hn. unfold done, in_tray. lia.
      * apply andb_false_iff in E. rewrite !Z.eqb_neq in E. destruct (Hpx X Y) as [H1 H2].
        split; intros Hd; [apply H1|apply H2]; unfold done, in_tray in *; lia.
    + exists c'. split; [assumption|]. destruct Hc' as [Hsz Hpx]. split; [assumption|].
      intros X Y. destruct (Hpx X Y) as [H1 H2].
      split; intros Hd; [apply H1|apply H2]; unfold done, in_tray in *; lia.
  - exists c'. split; [exact E|]. destruct Hc as [[Hsw Hsh] Hpx].
    split; [assumption|]. split; [assumption|].
    split; intros X Y Hd; destruct (Hpx X Y) as [H1 H2]; [apply H1|apply H2]; unfold done, in_tray in *; lia.
Qed.

(* what copying gives, when source and destination are disjoint *)
Lemma copy_from_ok {P} (c : canvas P) t sx sy : tray_ok c t ->
  0 <= sx -> 0 <= sy -> sx + width (tsize t) <= cw c -> sy + height (tsize t) <= ch c ->
  (forall x y, 0 <= x < width (tsize t) -> 0 <= y < height (tsize t) -> ~ in_tray t (sx + x) (sy + y)) ->
  exists c', copy_from t sx sy c = Some c' /\ tray_becomes c t (fun x y => cpix c (sx + x) (sy + y)) c'.
Proof.
  intros Ht Hsx Hsy Hw Hh Hd. unfold copy_from. apply loop2_px; [assumption|].
  intros x y c1 Hx Hy [Ew Eh] Hout. rewrite get_px_ok by lia. cbn [obind]. rewrite Hout by auto. reflexivity.
Qed.

Lemma fill_ok {P} (c : canvas P) t p : tray_ok c t ->
  exists c', fill t p c = Some c' /\ tray_becomes c t (fun _ _ => p) c'.
Proof. intros Ht. unfold fill. apply loop2_px; [assumption|]. reflexivity. Qed.

Lemma read_px_ok {P} (s : source P) bg x y :
  0 <= x < width (source_size s) -> 0 <= y < height (source_size s) ->
  read_px s bg x y = Some (color_at s bg x y).
Proof.
  intros Hx Hy. destruct s as [c|c pal]; cbn [read_px color_at source_size width height] in *.
  - apply get_px_ok; assumption.
  - rewrite get_px_ok by assumption. cbn [obind]. destruct (cpix c x y <? length pal)%nat eqn:E.
    + apply Nat.ltb_lt in E. now apply nth_error_nth'.
    + apply Nat.ltb_ge in E. now rewrite nth_overflow.
Qed.

Lemma read_ok {P} (s : source P) bg p t (c : canvas P) : tray_ok c t ->
  0 <= px p -> 0 <= py p -> px p + width (tsize t) <= width (source_size s) ->
  py p + height (tsize t) <= height (source_size s) ->
  exists c', read s bg p t c = Some c' /\
    tray_becomes c t (fun x y => color_at s bg (px p + x) (py p + y)) c'.
Proof.
  intros Ht Hx Hy Hw Hh. unfold read. apply loop2_px; [assumption|].
  intros x y c1 Hx1 Hy1 _ _. rewrite read_px_ok by lia. reflexivity.
Qed.

(* subtrays *)
Lemma subtray_ok t b o :
  - 2 ^ 31 <= px (bpos b) - px o < 2 ^ 31 -> - 2 ^ 31 <= py (bpos b) - py o < 2 ^ 31 ->
  subtray t b o = Some (Tray (tx t + (px (bpos b) - px o)) (ty t + (py (bpos b) - py o)) (bsize b)).
Proof.
  intros Hx Hy. unfold subtray, pos_diff. rewrite !isub_ok by assumption. reflexivity.
Qed.

(* composition of changes: everything inside of t is changed to F where it is changed *)
Definition good {P} (c0 : canvas P) (t : tray) (F : Z -> Z -> P) (G : Z -> Z -> Prop) (c : canvas P) : Prop :=
  same_size c0 c /\
  (forall x y, 0 <= x < width (tsize t) -> 0 <= y < height (tsize t) -> G x y ->
     cpix c (tx t + x) (ty t + y) = F x y) /\
  (forall X Y, ~ in_tray t X Y -> cpix c X Y = cpix c0 X Y).

Lemma good_step {P} (c0 : canvas P) t F (G G' : Z -> Z -> Prop) c c' rx ry sz g :
  good c0 t F G c -> tray_becomes c (Tray (tx t + rx) (ty t + ry) sz) g c' ->
  0 <= rx -> 0 <= ry -> rx + width sz <= width (tsize t) -> ry + height sz <= height (tsize t) ->
  (forall x y, 0 <= x < width sz -> 0 <= y < height sz -> g x y = F (rx + x) (ry + y)) ->
  (forall x y, 0 <= x < width (tsize t) -> 0 <= y < height (tsize t) -> G' x y ->
     G x y \/ (rx <= x < rx + width sz /\ ry <= y < ry + height sz)) ->
  good c0 t F G' c'.
Proof.
  intros ([Sw Sh] & Hin & Hout) (Bw & Bh & Bin & Bout) Hrx Hry Hw Hh Hg HG. split; [split; congruence|].
  unfold in_tray in *. cbn [tx ty tsize] in *. split.
  - intros x y Hx Hy HG'. destruct (in_tray_dec (Tray rx ry sz) x y) as [D|D]; unfold in_tray in D; cbn [tx ty tsize] in D.
    + rewrite Bin by lia. rewrite Hg by lia. f_equal; lia.
    + rewrite Bout by lia. apply Hin; auto. destruct (HG x y Hx Hy HG') as [?|?]; [assumption|lia].
  - intros X Y Hn. rewrite Bout by lia. apply Hout. lia.
Qed.

Lemma good_start {P} (c : canvas P) t F : good c t F (fun _ _ => False) c.
Proof. split; [split; reflexivity|]. split; [tauto|reflexivity]. Qed.

Lemma good_weaken {P} (c0 : canvas P) t F (G G' : Z -> Z -> Prop) c : good c0 t F G c ->
  (forall x y, 0 <= x < width (tsize t) -> 0 <= y < height (tsize t) -> G' x y -> G x y) -> good c0 t F G' c.
Proof. intros (A & B & C) H. split; [assumption|]. split; [|assumption]. intros. apply B; auto. Qed.

Lemma good_done {P} (c0 : canvas P) t F G c : good c0 t F G c ->
  (forall x y, 0 <= x < width (tsize t) -> 0 <= y < height (tsize t) -> G x y) -> tray_becomes c0 t F c.
Proof.
  intros ([A1 A2] & B & C) H. split; [assumption|]. split; [assumption|]. split; [|assumption].
  unfold in_tray. intros x y Hd. replace x with (tx t + (x - tx t)) at 1 by lia.
  replace y with (ty t + (y - ty t)) at 1 by lia. apply B; [lia|lia|]. apply H; lia.
Qed.

(* the steps of read_e *)
Section Steps.
Context {P : Type} (c0 : canvas P) (t : tray) (F : Z -> Z -> P).
Hypothesis Ht : tray_ok c0 t.

Lemma sub_ok c G rx ry sz : good c0 t F G c -> 0 <= rx -> 0 <= ry -> 0 <= width sz -> 0 <= height sz ->
  rx + width sz <= width (tsize t) -> ry + height sz <= height (tsize t) ->
  tray_ok c (Tray (tx t + rx) (ty t + ry) sz).
Proof.
  intros ([Sw Sh] & _) Hx Hy Hw0 Hh0 Hw Hh. unfold tray_ok, int_size in *. cbn [tx ty tsize]. lia.
Qed.

Lemma step_copy c (G G' : Z -> Z -> Prop) rx ry sz sx sy : good c0 t F G c ->
  0 <= rx -> 0 <= ry -> 0 <= width sz -> 0 <= height sz ->
  rx + width sz <= width (tsize t) -> ry + height sz <= height (tsize t) ->
  0 <= sx -> 0 <= sy -> sx + width sz <= width (tsize t) -> sy + height sz <= height (tsize t) ->
  (sx + width sz <= rx \/ rx + width sz <= sx \/ sy + height sz <= ry \/ ry + height sz <= sy) ->
  (forall x y, 0 <= x < width sz -> 0 <= y < height sz ->
     G (sx + x) (sy + y) /\ F (sx + x) (sy + y) = F (rx + x) (ry + y)) ->
  (forall x y, 0 <= x < width (tsize t) -> 0 <= y < height (tsize t) -> G' x y ->
     G x y \/ (rx <= x < rx + width sz /\ ry <= y < ry + height sz)) ->
  exists c', copy_from (Tray (tx t + rx) (ty t + ry) sz) (tx t + sx) (ty t + sy) c = Some c' /\ good c0 t F G' c'.
Proof.
  intros Hg Hrx Hry Hw0 Hh0 Hw Hh Hsx Hsy Hsw Hsh Hdis HF HG.
  destruct (copy_from_ok c (Tray (tx t + rx) (ty t + ry) sz) (tx t + sx) (ty t + sy)) as (c' & E & B).
  - eapply sub_ok; eassumption.
  - destruct Ht as (_ & ? & _). lia.
  - destruct Ht as (_ & _ & ? & _). lia.
  - destruct Hg as ([Sw Sh] & _). destruct Ht as (_ & _ & _ & ? & ?). cbn [tsize]. lia.
  - destruct Hg as ([Sw Sh] & _). destruct Ht as (_ & _ & _ & ? & ?). cbn [tsize]. lia.
  - unfold in_tray. cbn [tx ty tsize]. lia.
  - exists c'. split; [exact E|]. eapply good_step; [exact Hg|exact B|lia|lia|lia|lia| |exact HG].
    intros x y Hx Hy. cbn. destruct (HF x y Hx Hy) as [HGs HFs]. rewrite <- HFs.
    rewrite <- !Z.add_assoc. destruct Hg as (_ & Hin & _). apply Hin; [lia|lia|exact HGs].
Qed.

Lemma step_fill c (G G' : Z -> Z -> Prop) rx ry sz p : good c0 t F G c ->
  0 <= rx -> 0 <= ry -> 0 <= width sz -> 0 <= height sz ->
  rx + width sz <= width (tsize t) -> ry + height sz <= height (tsize t) ->
  (forall x y, 0 <= x < width sz -> 0 <= y < height sz -> p = F (rx + x) (ry + y)) ->
  (forall x y, 0 <= x < width (tsize t) -> 0 <= y < height (tsize t) -> G' x y ->
     G x y \/ (rx <= x < rx + width sz /\ ry <= y < ry + height sz)) ->
  exists c', bgcolor_fill t p (Pos rx ry) sz c = Some c' /\ good c0 t F G' c'.
Proof.
  intros Hg Hrx Hry Hw0 Hh0 Hw Hh HF HG. destruct Ht as ((Hs1 & Hs2) & _). unfold bgcolor_fill.
  rewrite subtray_ok by (cbn [px py bpos]; lia). cbn [obind px py bpos bsize]. rewrite !Z.sub_0_r.
  destruct (fill_ok c (Tray (tx t + rx) (ty t + ry) sz) p) as (c' & E & B).
  - eapply sub_ok; eassumption.
  - exists c'. split; [exact E|]. eapply good_step; [exact Hg|exact B|lia|lia|lia|lia|exact HF|exact HG].
Qed.

Lemma step_read c (G G' : Z -> Z -> Prop) rx ry sz s bg p : good c0 t F G c ->
  0 <= rx -> 0 <= ry -> 0 <= width sz -> 0 <= height sz ->
  rx + width sz <= width (tsize t) -> ry + height sz <= height (tsize t) ->
  0 <= px p -> 0 <= py p -> px p + width sz <= width (source_size s) -> py p + height sz <= height (source_size s) ->
  (forall x y, 0 <= x < width sz -> 0 <= y < height sz ->
     color_at s bg (px p + x) (py p + y) = F (rx + x) (ry + y)) ->
  (forall x y, 0 <= x < width (tsize t) -> 0 <= y < height (tsize t) -> G' x y ->
     G x y \/ (rx <= x < rx + width sz /\ ry <= y < ry + height sz)) ->
  exists c', read s bg p (Tray (tx t + rx) (ty t + ry) sz) c = Some c' /\ good c0 t F G' c'.
Proof.
  intros Hg Hrx Hry Hw0 Hh0 Hw Hh Hpx Hpy Hpw Hph HF HG.
  destruct (read_ok s bg p (Tray (tx t + rx) (ty t + ry) sz) c) as (c' & E & B); cbn [tsize]; try assumption.
  - eapply sub_ok; eassumption.
  - exists c'. split; [exact E|]. eapply good_step; [exact Hg|exact B|lia|lia|lia|lia|exact HF|exact HG].
Qed.

End Steps.
