From Coq Require Import ZArith Lia Bool List ZifyBool.
From Verif Require Import CInt IntModel IntSpec.
From Verif Require Import PixelBoxModel PixelBoxSpec PixelBoxProps.
From Verif Require Import ArrLib PixelBufModel PixelBufSpec PixelBufProofs.
Import ListNotations.
Open Scope Z_scope.

Lemma zseq_S a n : zseq a (S n) = a :: zseq (a + 1) n.
Proof.
  unfold zseq. cbn [seq map]. f_equal; [lia|]. rewrite <- seq_shift, map_map. apply map_ext. intros i. lia.
Qed.

Lemma assert_contained_ok p s t : image_ok t -> within p s t -> assert_contained p s t = Some tt.
Proof.
  intros [Hw Hh] (H1 & H2 & H3 & H4 & H5 & H6). unfold assert_contained.
  destruct (box_contains_exact_partial (Box (Pos 0 0) t) (Box p s)) as (r & _ & E & Hr & _).
  - unfold valid_box. cbn [bpos bsize px py]. lia.
  - unfold valid_box. cbn [bpos bsize px py]. lia.
  - unfold near. cbn [bpos bsize px py]. lia.
  - rewrite E. cbn [obind]. assert (Hc : r = true).
    { apply Hr. unfold corners_within. cbn [bpos bsize px py]. lia. }
    now rewrite Hc.
Qed.

Lemma assert_contained_inv p s t : image_ok t -> 0 <= width s < 2 ^ 31 -> 0 <= height s < 2 ^ 31 ->
  valid_box (Box p s) -> assert_contained p s t = Some tt -> 0 <= px p -> 0 <= py p -> within p s t.
Proof.
  intros [Hw Hh] H1 H2 Hv H3 H4 H5. unfold assert_contained in H3.
  destruct (box_contains_exact_partial (Box (Pos 0 0) t) (Box p s)) as (r & _ & E & Hr & _).
  - unfold valid_box. cbn [bpos bsize px py]. lia.
  - exact Hv.
  - unfold near, valid_box in *. cbn [bpos bsize px py] in *. lia.
  - rewrite E in H3. cbn [obind] in H3. destruct r; [|discriminate].
    pose proof (proj1 Hr eq_refl) as Hc. unfold corners_within in Hc. cbn [bpos bsize px py] in Hc.
    unfold within. lia.
Qed.

(* positions of pixels *)
Lemma pixel_inj w x y x' y' : 0 <= x < w -> 0 <= x' < w -> y * w + x = y' * w + x' -> x = x' /\ y = y'.
Proof. intros. assert (y = y') by nia. subst. split; lia. Qed.

Lemma disjoint_pixels D a b k : 0 < D -> a <> b -> a * D <= k < a * D + D -> ~ (b * D <= k < b * D + D).
Proof. intros HD Hn Ha Hb. assert (a < b + 1) by nia. assert (b < a + 1) by nia. lia. Qed.

Section Raster.
  Variables P Q : Type.
  Variable D : Z.
  Variable read_pixel : list Z -> Z -> option P.
  Variable write_pixel : P -> list Z -> Z -> option (list Z).
  (* the D words from the given position on hold the given value *)
  Variable holds : list Z -> Z -> Q -> Prop.
  Variable enc : P -> Q.
  Variable dec : Q -> P.
  Variable okp : P -> Prop.
  Variable okq : Q -> Prop.
  Hypothesis HD : 0 < D.
  Hypothesis Hlocal : forall b b' o o' q, (forall i, 0 <= i < D -> word b' (o' + i) = word b (o + i)) ->
    holds b o q -> holds b' o' q.
  Hypothesis Hread : forall b o q, okq q -> holds b o q -> read_pixel b o = Some (dec q).
  Hypothesis Hwrite : forall p b o, okp p -> 0 <= o -> o + D <= Z.of_nat (length b) ->
    exists b', write_pixel p b o = Some b' /\ length b' = length b /\ holds b' o (enc p) /\
      forall k, ~ (o <= k < o + D) -> word b' k = word b k.

  Lemma get_pixel_ptr_ok buf w h x y : 0 <= w -> 0 <= x <= w -> 0 <= y < h ->
    Z.of_nat (length buf) = w * h * D -> w * h * D < 2 ^ 63 ->
    get_pixel_ptr D buf w x y = Some ((y * w + x) * D).
  Proof using HD.
    intros Hw Hx Hy Hl Hm. unfold get_pixel_ptr.
    assert (0 <= y * w) by nia. assert (y * w + x <= w * h) by nia.
    assert (w * h <= w * h * D) by nia.
    assert (0 <= (y * w + x) * D <= w * h * D) by nia.
    rewrite pdiff_ok by lia. cbn [obind]. rewrite pdiff_ok by lia. cbn [obind]. rewrite pdiff_ok by lia. cbn [obind].
    rewrite padd_ok by lia. reflexivity.
  Qed.

  Lemma read_row_ok buf img : forall n g, 0 <= g -> (g + Z.of_nat n) * D <= Z.of_nat (length buf) ->
    (forall j, 0 <= j < Z.of_nat n -> okq (img (g + j)) /\ holds buf ((g + j) * D) (img (g + j))) ->
    read_row P D read_pixel n buf (g * D) = Some (map (fun j => dec (img j)) (zseq g n)).
  Proof using Hread HD.
    induction n as [|n IH]; intros g Hg Hl Hh; cbn [read_row]; [reflexivity|].
    destruct (Hh 0 ltac:(lia)) as [H1 H2]. rewrite Z.add_0_r in *. rewrite (Hread _ _ _ H1 H2). cbn [obind].
    rewrite padd_ok by nia. cbn [obind]. replace (g * D + D) with ((g + 1) * D) by lia.
    rewrite IH; [|lia|nia|].
    - cbn [obind]. rewrite zseq_S. reflexivity.
    - intros j Hj. replace (g + 1 + j) with (g + (1 + j)) by lia. apply Hh. lia.
  Qed.

  Lemma read_rows_ok buf w h p s (img : Z -> Z -> Q) : 0 <= w -> 0 <= h < 2 ^ 31 ->
    Z.of_nat (length buf) = w * h * D -> w * h * D < 2 ^ 63 -> within p s (Size w h) ->
    (forall x y, 0 <= x < w -> 0 <= y < h -> okq (img x y) /\ holds buf ((y * w + x) * D) (img x y)) ->
    forall n y, 0 <= y -> y + Z.of_nat n = height s ->
    read_rows P D read_pixel n y buf w p s =
      Some (map (fun j => map (fun i => dec (img (px p + i) (py p + j))) (zseq 0 (Z.to_nat (width s)))) (zseq y n)).
  Proof using Hread HD.
    intros Hw Hh Hl Hm Hin Hi. destruct Hin as (H1 & H2 & H3 & H4 & H5 & H6). cbn [width height] in *.
    induction n as [|n IH]; intros y Hy Hn; cbn [read_rows]; [reflexivity|].
    rewrite iadd_ok by lia. cbn [obind]. rewrite (get_pixel_ptr_ok buf w h) by (assumption || lia). cbn [obind].
    rewrite (read_row_ok buf (fun g => img (g - (py p + y) * w) (py p + y))).
    - cbn [obind]. rewrite IH by lia. cbn [obind]. rewrite zseq_S. cbn [map]. do 2 f_equal.
      unfold zseq. rewrite !map_map. apply map_ext. intros i. do 2 f_equal. lia.
    - nia.
    - rewrite Hl. assert ((py p + y) * w + px p + Z.of_nat (Z.to_nat (width s)) <= w * h) by nia. nia.
    - intros j Hj. replace ((py p + y) * w + px p + j - (py p + y) * w) with (px p + j) by lia.
      replace ((py p + y) * w + px p + j) with ((py p + y) * w + (px p + j)) by lia. apply Hi; lia.
  Qed.

  Lemma read_ok buf s p t (img : Z -> Z -> Q) : image_ok s ->
    Z.of_nat (length buf) = width s * height s * D -> width s * height s * D < 2 ^ 63 -> within p t s ->
    (forall x y, 0 <= x < width s -> 0 <= y < height s ->
      okq (img x y) /\ holds buf ((y * width s + x) * D) (img x y)) ->
    read P D read_pixel buf s p t =
      Some (map (fun j => map (fun i => dec (img (px p + i) (py p + j))) (zseq 0 (Z.to_nat (width t))))
              (zseq 0 (Z.to_nat (height t)))).
  Proof using Hread HD.
    intros Hs Hl Hm Hin Hi. unfold read. rewrite assert_contained_ok by assumption. cbn [obind].
    destruct Hs as [Hw Hh]. apply read_rows_ok with (h := height s); try assumption; try lia.
    destruct Hin. lia.
  Qed.

  Lemma write_row_ok tray y : forall n x buf g, 0 <= g -> (g + Z.of_nat n) * D <= Z.of_nat (length buf) ->
    (forall j, 0 <= j < Z.of_nat n -> okp (tray (x + j) y)) ->
    exists buf', write_row P D write_pixel n x y tray buf (g * D) = Some buf' /\ length buf' = length buf /\
      (forall j, 0 <= j < Z.of_nat n -> holds buf' ((g + j) * D) (enc (tray (x + j) y))) /\
      (forall k, ~ (g * D <= k < (g + Z.of_nat n) * D) -> word buf' k = word buf k).
  Proof using Hwrite Hlocal HD.
    induction n as [|n IH]; intros x buf g Hg Hl Hp; cbn [write_row].
    - exists buf. split; [reflexivity|]. split; [reflexivity|]. split; [lia|]. intros. reflexivity.
    - pose proof (Hp 0 ltac:(lia)) as Hp0. rewrite Z.add_0_r in Hp0.
      destruct (Hwrite _ buf (g * D) Hp0 ltac:(nia) ltac:(nia)) as (b1 & E1 & L1 & S1 & F1).
      rewrite E1. cbn [obind]. rewrite padd_ok by (rewrite L1; nia). cbn [obind].
      replace (g * D + D) with ((g + 1) * D) by lia.
      destruct (IH (x + 1) b1 (g + 1)) as (b2 & E2 & L2 & S2 & F2); [lia|rewrite L1; nia| |].
      { intros j Hj. replace (x + 1 + j) with (x + (1 + j)) by lia. apply Hp. lia. }
      rewrite E2. exists b2. split; [reflexivity|]. split; [lia|]. split.
      + intros j Hj. destruct (Z.eq_dec j 0) as [->|].
        * rewrite !Z.add_0_r. eapply Hlocal; [|exact S1]. intros i Hi. apply F2. nia.
        * replace (g + j) with (g + 1 + (j - 1)) by lia. replace (x + j) with (x + 1 + (j - 1)) by lia.
          apply S2. lia.
      + intros k Hk. rewrite F2 by nia. apply F1. nia.
  Qed.

  (* the loop over rows, for anything that writes one row *)
  Definition rows_written (w x0 y0 tw y n : Z) (val : Z -> Z -> Q) (buf buf' : list Z) : Prop :=
    length buf' = length buf /\
    (forall j r, 0 <= j < tw -> y <= r < y + n -> holds buf' (((y0 + r) * w + (x0 + j)) * D) (val j r)) /\
    (forall k, (forall j r, 0 <= j < tw -> y <= r < y + n ->
        ~ (((y0 + r) * w + (x0 + j)) * D <= k < ((y0 + r) * w + (x0 + j)) * D + D)) -> word buf' k = word buf k).

  Lemma rows_written_0 w x0 y0 tw y val buf : rows_written w x0 y0 tw y 0 val buf buf.
  Proof using. split; [reflexivity|]. split; [lia|]. intros. reflexivity. Qed.

  Lemma rows_written_S w x0 y0 tw y n val buf b1 b2 : 0 <= n -> 0 <= x0 -> x0 + tw <= w -> 0 <= tw ->
    length b1 = length buf ->
    (forall j, 0 <= j < tw -> holds b1 (((y0 + y) * w + x0 + j) * D) (val j y)) ->
    (forall k, ~ (((y0 + y) * w + x0) * D <= k < ((y0 + y) * w + x0 + tw) * D) -> word b1 k = word buf k) ->
    rows_written w x0 y0 tw (y + 1) n val b1 b2 ->
    rows_written w x0 y0 tw y (n + 1) val buf b2.
  Proof using Hlocal HD.
    intros Hn Hx0 Hw Htw L1 S1 F1 (L2 & S2 & F2). split; [lia|]. split.
    - intros j r Hj Hr. destruct (Z.eq_dec r y) as [->|].
      + replace ((y0 + y) * w + (x0 + j)) with ((y0 + y) * w + x0 + j) by lia.
        eapply Hlocal; [|apply S1; assumption]. intros i Hi. apply F2. intros j' r' Hj' Hr'.
        apply disjoint_pixels with (a := (y0 + y) * w + x0 + j); [assumption| |lia].
        intros E. destruct (pixel_inj w (x0 + j) (y0 + y) (x0 + j') (y0 + r')); lia.
      + apply S2; lia.
    - intros k Hk. rewrite F2.
      + apply F1. intros H. set (q := k / D).
        assert (q * D <= k < q * D + D).
        { unfold q. pose proof (Z.div_mod k D ltac:(lia)). pose proof (Z.mod_pos_bound k D HD). lia. }
        apply (Hk (q - ((y0 + y) * w + x0)) y); [nia|lia|].
        replace ((y0 + y) * w + (x0 + (q - ((y0 + y) * w + x0)))) with q by lia. assumption.
      + intros j r Hj Hr. apply Hk; lia.
  Qed.

  Lemma write_rows_ok w h p s tray : 0 <= w -> 0 <= h < 2 ^ 31 -> w * h * D < 2 ^ 63 -> within p s (Size w h) ->
    (forall x y, 0 <= x < width s -> 0 <= y < height s -> okp (tray x y)) ->
    forall n y buf, 0 <= y -> y + Z.of_nat n = height s -> Z.of_nat (length buf) = w * h * D ->
    exists buf', write_rows P D write_pixel n y buf w p s tray = Some buf' /\
      rows_written w (px p) (py p) (width s) y (Z.of_nat n) (fun x y => enc (tray x y)) buf buf'.
  Proof using Hwrite Hlocal HD.
    intros Hw Hh Hm Hin Hi. destruct Hin as (H1 & H2 & H3 & H4 & H5 & H6). cbn [width height] in *.
    induction n as [|n IH]; intros y buf Hy Hn Hl; cbn [write_rows].
    - eexists. split; [reflexivity|]. apply rows_written_0.
    - rewrite iadd_ok by lia. cbn [obind]. rewrite (get_pixel_ptr_ok buf w h) by (assumption || lia). cbn [obind].
      destruct (write_row_ok tray y (Z.to_nat (width s)) 0 buf ((py p + y) * w + px p)) as (b1 & E1 & L1 & S1 & F1).
      + nia.
      + rewrite Hl. assert ((py p + y) * w + px p + Z.of_nat (Z.to_nat (width s)) <= w * h) by nia. nia.
      + intros j Hj. apply Hi; lia.
      + rewrite E1. cbn [obind]. destruct (IH (y + 1) b1) as (b2 & E2 & R2); try lia.
        exists b2. split; [assumption|]. replace (Z.of_nat (S n)) with (Z.of_nat n + 1) by lia.
        apply rows_written_S with (b1 := b1); try assumption; try lia.
        * intros j Hj. apply S1. lia.
        * intros k Hk. apply F1. now rewrite Z2Nat.id.
  Qed.

  (* what becomes of the pixels of an image *)
  Definition image_written (s : size) (p : pos) (t : size) (val : Z -> Z -> Q) (buf buf' : list Z) : Prop :=
    length buf' = length buf /\
    forall x y, 0 <= x < width s -> 0 <= y < height s ->
      (covers p t x y -> holds buf' ((y * width s + x) * D) (val (x - px p) (y - py p))) /\
      (~ covers p t x y -> forall i, 0 <= i < D ->
         word buf' ((y * width s + x) * D + i) = word buf ((y * width s + x) * D + i)).

  Lemma image_written_rows s p t val buf buf' : within p t s ->
    rows_written (width s) (px p) (py p) (width t) 0 (height t) val buf buf' ->
    image_written s p t val buf buf'.
  Proof using HD.
    intros Hin (L & S & F). split; [assumption|]. intros x y Hx Hy. unfold covers, in_box. cbn [bpos bsize]. split.
    - intros [Hcx Hcy]. specialize (S (x - px p) (y - py p) ltac:(lia) ltac:(lia)).
      replace (py p + (y - py p)) with y in S by lia. replace (px p + (x - px p)) with x in S by lia. assumption.
    - intros Hc i Hi. apply F. intros j r Hj Hr. apply disjoint_pixels with (a := y * width s + x); [assumption| |lia].
      intros E. destruct Hin as (H1 & H2 & H3 & H4 & H5 & H6).
      destruct (pixel_inj (width s) x y (px p + j) (py p + r)); try lia.
  Qed.

  Lemma write_ok buf s p t tray : image_ok s ->
    Z.of_nat (length buf) = width s * height s * D -> width s * height s * D < 2 ^ 63 -> within p t s ->
    (forall x y, 0 <= x < width t -> 0 <= y < height t -> okp (tray x y)) ->
    exists buf', write P D write_pixel buf s p t tray = Some buf' /\
      image_written s p t (fun x y => enc (tray x y)) buf buf'.
  Proof using Hwrite Hlocal HD.
    intros Hs Hl Hm Hin Hi. unfold write. rewrite assert_contained_ok by assumption. cbn [obind].
    destruct Hs as [Hw Hh]. pose proof Hin as (H1 & H2 & H3 & H4 & H5 & H6).
    destruct (write_rows_ok (width s) (height s) p t tray) with (n := Z.to_nat (height t)) (y := 0) (buf := buf)
      as (buf' & E & R); try assumption; try lia.
    exists buf'. split; [assumption|]. apply image_written_rows; [assumption|].
    rewrite Z2Nat.id in R by lia. assumption.
  Qed.

  Lemma copy_n_ok : forall words buf off, 0 <= off -> off + Z.of_nat (length words) <= Z.of_nat (length buf) ->
    exists buf', copy_n words buf off = Some buf' /\ length buf' = length buf /\
      (forall i, 0 <= i < Z.of_nat (length words) -> word buf' (off + i) = word words i) /\
      (forall k, ~ (off <= k < off + Z.of_nat (length words)) -> word buf' k = word buf k).
  Proof using.
    induction words as [|v words IH]; intros buf off Ho Hl; cbn [copy_n length] in *.
    - exists buf. split; [reflexivity|]. split; [reflexivity|]. split; [lia|]. intros; reflexivity.
    - destruct (wr_ok buf off v ltac:(lia)) as (b1 & E1 & L1 & N1). rewrite E1. cbn [obind].
      destruct (IH b1 (off + 1)) as (b2 & E2 & L2 & S2 & F2); try lia.
      exists b2. split; [assumption|]. split; [lia|]. split.
      + intros i Hi. destruct (Z.eq_dec i 0) as [->|].
        * rewrite F2, N1 by lia. replace (off + 0 =? off) with true by lia. reflexivity.
        * replace (off + i) with (off + 1 + (i - 1)) by lia. rewrite S2 by lia.
          unfold word. replace (0 <=? i - 1) with true by lia. replace (0 <=? i) with true by lia.
          replace (Z.to_nat i) with (S (Z.to_nat (i - 1))) by lia. reflexivity.
      + intros k Hk. rewrite F2, N1 by lia. replace (k =? off) with false by lia. reflexivity.
  Qed.

  Lemma fill_row_ok words q : Z.of_nat (length words) = D -> holds words 0 q ->
    forall n buf g, 0 <= g -> (g + Z.of_nat n) * D <= Z.of_nat (length buf) ->
    exists buf', fill_row D n words buf (g * D) = Some buf' /\ length buf' = length buf /\
      (forall j, 0 <= j < Z.of_nat n -> holds buf' ((g + j) * D) q) /\
      (forall k, ~ (g * D <= k < (g + Z.of_nat n) * D) -> word buf' k = word buf k).
  Proof using Hlocal HD.
    intros Hlw Hq. induction n as [|n IH]; intros buf g Hg Hl; cbn [fill_row].
    - exists buf. split; [reflexivity|]. split; [reflexivity|]. split; [lia|]. intros. reflexivity.
    - destruct (copy_n_ok words buf (g * D) ltac:(nia) ltac:(nia)) as (b1 & E1 & L1 & S1 & F1).
      rewrite Hlw in *. rewrite E1. cbn [obind]. rewrite padd_ok by (rewrite L1; nia). cbn [obind].
      replace (g * D + D) with ((g + 1) * D) by lia.
      destruct (IH b1 (g + 1)) as (b2 & E2 & L2 & S2 & F2); [lia|rewrite L1; nia|].
      rewrite E2. exists b2. split; [reflexivity|]. split; [lia|]. split.
      + intros j Hj. destruct (Z.eq_dec j 0) as [->|].
        * rewrite !Z.add_0_r. eapply Hlocal; [|exact Hq]. intros i Hi. rewrite F2 by nia. rewrite S1 by lia. f_equal.
        * replace (g + j) with (g + 1 + (j - 1)) by lia. apply S2. lia.
      + intros k Hk. rewrite F2 by nia. apply F1. nia.
  Qed.

  Lemma fill_rows_ok w h x0 y0 tw words q : 0 <= w -> 0 <= x0 -> x0 + tw <= w -> 0 <= tw -> 0 <= y0 ->
    w * h * D < 2 ^ 63 -> Z.of_nat (length words) = D -> holds words 0 q ->
    forall n y buf, 0 <= y -> y0 + y + Z.of_nat n <= h -> Z.of_nat (length buf) = w * h * D ->
    exists buf', fill_rows D n (y0 + y) words buf w x0 (x0 + tw) = Some buf' /\
      rows_written w x0 y0 tw y (Z.of_nat n) (fun x y => q) buf buf'.
  Proof using Hlocal HD.
    intros Hw H1 H2 H3 H4 Hm Hlw Hq. induction n as [|n IH]; intros y buf Hy Hn Hl; cbn [fill_rows].
    - eexists. split; [reflexivity|]. apply rows_written_0.
    - rewrite (get_pixel_ptr_ok buf w h) by (assumption || lia). cbn [obind].
      replace (x0 + tw - x0) with tw by lia.
      destruct (fill_row_ok words q Hlw Hq (Z.to_nat tw) buf ((y0 + y) * w + x0)) as (b1 & E1 & L1 & S1 & F1).
      + nia.
      + rewrite Hl. assert ((y0 + y) * w + x0 + Z.of_nat (Z.to_nat tw) <= w * h) by nia. nia.
      + rewrite E1. cbn [obind]. destruct (IH (y + 1) b1) as (b2 & E2 & R2); try lia.
        exists b2. split; [now rewrite <- Z.add_assoc|]. replace (Z.of_nat (S n)) with (Z.of_nat n + 1) by lia.
        apply rows_written_S with (b1 := b1); try assumption; try lia.
        * intros j Hj. apply S1. lia.
        * intros k Hk. apply F1. now rewrite Z2Nat.id.
  Qed.

  Lemma fill_ok init buf s area color : image_ok s -> Z.of_nat (length init) = D ->
    Z.of_nat (length buf) = width s * height s * D -> width s * height s * D < 2 ^ 63 ->
    within (bpos area) (bsize area) s -> okp color ->
    exists buf', fill P D write_pixel init buf s area color = Some buf' /\
      image_written s (bpos area) (bsize area) (fun _ _ => enc color) buf buf'.
  Proof using Hwrite Hlocal HD.
    intros Hs Hi Hl Hm Hin Hc. unfold fill. rewrite assert_contained_ok by assumption. cbn [obind].
    destruct (Hwrite color init 0 Hc ltac:(lia) ltac:(lia)) as (cw & E & L & S & _). rewrite E. cbn [obind].
    pose proof Hin as (H1 & H2 & H3 & H4 & H5 & H6). destruct Hs as [Hw Hh].
    rewrite !iadd_ok by lia. cbn [obind].
    replace (py (bpos area) + height (bsize area) - py (bpos area)) with (height (bsize area)) by lia.
    destruct (fill_rows_ok (width s) (height s) (px (bpos area)) (py (bpos area)) (width (bsize area)) cw (enc color))
      with (n := Z.to_nat (height (bsize area))) (y := 0) (buf := buf) as (buf' & E' & R); try assumption; try lia.
    rewrite Z.add_0_r in E'. exists buf'. split; [assumption|]. apply image_written_rows; [assumption|].
    rewrite Z2Nat.id in R by lia. assumption.
  Qed.
End Raster.
