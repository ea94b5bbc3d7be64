From Coq Require Import ZArith Lia Bool List ZifyBool.
From Verif Require Import CInt IntModel IntSpec IntProofs IntProofs2.
From Verif Require Import PixelBoxModel PixelBoxSpec PixelBoxProps.
From Verif Require Import ArrLib PixelBufModel PixelBufSpec PixelBufProofs PixelBufProofs2 RunSpec.
Import ListNotations.
Open Scope Z_scope.

Lemma zseq_app a n m : zseq a (n + m) = zseq a n ++ zseq (a + Z.of_nat n) m.
Proof.
  unfold zseq. rewrite seq_app, map_app. f_equal. cbn [Nat.add].
  rewrite <- (Nat.add_0_r n) at 1. rewrite <- (map_id (seq (n + 0) m)).
  replace (seq (n + 0) m) with (map (fun i => (n + i)%nat) (seq 0 m)).
  - rewrite !map_map. apply map_ext. intros i. lia.
  - rewrite Nat.add_0_r. clear. induction m as [|m IH]; [reflexivity|]. 
    rewrite !seq_S, map_app, IH. reflexivity.
Qed.

Lemma divmod N k p : 0 <= p < N -> (k * N + p) / N = k /\ (k * N + p) mod N = p.
Proof.
  intros H. split.
  - symmetry. apply Z.div_unique with p; lia.
  - symmetry. apply Z.mod_unique with k; lia.
Qed.

Lemma slot_stride_ge aligned N w : 0 < N -> 0 <= w -> w <= slot_stride aligned N w < w + N.
Proof.
  intros HN Hw. unfold slot_stride. destruct aligned; [|lia].
  pose proof (Z.div_mod (w + N - 1) N ltac:(lia)). pose proof (Z.mod_pos_bound (w + N - 1) N HN). lia.
Qed.

Lemma num_compounds_bound aligned N s : 0 < N -> 0 <= width s -> 0 <= height s ->
  height s * slot_stride aligned N (width s) <= num_compounds aligned N s * N.
Proof.
  intros HN Hw Hh. unfold num_compounds. set (t := height s * slot_stride aligned N (width s)).
  pose proof (Z.div_mod (t + N - 1) N ltac:(lia)). pose proof (Z.mod_pos_bound (t + N - 1) N HN). lia.
Qed.

Lemma round_up_alt w N : 0 < N -> - (- w / N) = (w + N - 1) / N.
Proof.
  intros HN. pose proof (Z.div_mod (- w) N ltac:(lia)). pose proof (Z.mod_pos_bound (- w) N HN).
  apply Z.div_unique with (N - 1 - (- w) mod N); lia.
Qed.

Lemma get_pixel_pos_ok aligned N w x y : 0 < N < 2 ^ 31 -> 0 <= w < 2 ^ 31 -> 0 <= x <= w -> 0 <= y < 2 ^ 31 ->
  get_pixel_pos N aligned w x y = Some (slot aligned N w x y / N, slot aligned N w x y mod N).
Proof.
  intros HN Hw Hx Hy. unfold get_pixel_pos, slot, slot_stride.
  assert (Hint : forall z, 0 <= z < 2 ^ 31 -> in_range t_int z) by (intros; unfold in_range, imin, imax; cbn; lia).
  destruct aligned.
  - set (r := (w + N - 1) / N).
    assert (Hr : 0 <= r <= w).
    { split; [apply Z.div_pos; lia|]. apply Z.lt_succ_r. apply Z.div_lt_upper_bound; nia. }
    assert (E : int_div_round_up t_int t_int w N = Some r).
    { rewrite int_div_round_up_spec; [|cbn; lia|cbn; lia|apply Hint; lia|apply Hint; lia|lia|lia].
      f_equal. unfold r. apply round_up_alt. lia. }
    rewrite E. cbn [obind]. rewrite Z.quot_div_nonneg, Z.rem_mod_nonneg by lia.
    assert (0 <= x / N <= x) by (split; [apply Z.div_pos; lia|apply Z.div_le_upper_bound; nia]).
    rewrite pdiff_ok by nia. cbn [obind]. rewrite pdiff_ok by nia. cbn [obind].
    pose proof (Z.div_mod x N ltac:(lia)) as Hdm. pose proof (Z.mod_pos_bound x N ltac:(lia)) as Hmb.
    destruct (divmod N (y * r + x / N) (x mod N) Hmb) as [E1 E2].
    replace (y * (N * r) + x) with ((y * r + x / N) * N + x mod N) by nia. rewrite E1, E2. reflexivity.
  - rewrite pdiff_ok by nia. cbn [obind]. rewrite pdiff_ok by nia. cbn [obind].
    rewrite Z.quot_div_nonneg, Z.rem_mod_nonneg by nia. reflexivity.
Qed.

Section Runs.
  Variables P Q : Type.
  Variables N D : Z.
  Variable aligned : bool.
  Variable read_c : list Z -> Z -> option Z.
  Variable write_c : Z -> list Z -> Z -> option (list Z).
  Variable get_pixel : Z -> Z -> option P.
  Variable set_pixel : P -> Z -> Z -> option Z.
  (* the D words from the given position on hold the given compound *)
  Variable holds : list Z -> Z -> Z -> Prop.
  Variable okc : Z -> Prop.
  (* the pixel at a position in a compound *)
  Variable getq : Z -> Z -> Q.
  Variable enc : P -> Q.
  Variable dec : Q -> P.
  Variable okp : P -> Prop.
  Hypothesis HN : 0 < N < 2 ^ 31.
  Hypothesis HD : 0 < D.
  Hypothesis Hlocal : forall b b' o o' q, (forall i, 0 <= i < D -> word b' (o' + i) = word b (o + i)) ->
    holds b o q -> holds b' o' q.
  Hypothesis Hread : forall b o c, okc c -> holds b o c -> read_c b o = Some c.
  Hypothesis Hwrite : forall c b o, okc c -> 0 <= o -> o + D <= Z.of_nat (length b) ->
    exists b', write_c c b o = Some b' /\ length b' = length b /\ holds b' o c /\
      forall k, ~ (o <= k < o + D) -> word b' k = word b k.
  Hypothesis Hget : forall c p, okc c -> 0 <= p < N -> get_pixel c p = Some (dec (getq c p)).
  Hypothesis Hset : forall v c p, okp v -> okc c -> 0 <= p < N ->
    exists c', set_pixel v c p = Some c' /\ okc c' /\ getq c' p = enc v /\
      forall q, 0 <= q < N -> q <> p -> getq c' q = getq c q.
  Hypothesis Hzero : okc 0.

  Notation holds_all := (holds_all D holds okc).
  Notation pixel := (pixel Q N getq).
  Notation tray_put := (tray_put Q N aligned getq).

  Lemma pixel_at comps k p : 0 <= p < N -> pixel comps (k * N + p) = getq (comps k) p.
  Proof using. intros H. unfold RunSpec.pixel. destruct (divmod N k p H) as [-> ->]. reflexivity. Qed.

  (* reading *)

  Lemma get_pixels_ok comps k : okc (comps k) -> forall n p, 0 <= p -> p + Z.of_nat n <= N ->
    get_pixels P get_pixel n p (comps k) = Some (map (fun g => dec (pixel comps g)) (zseq (k * N + p) n)).
  Proof using Hget.
    intros Hc. induction n as [|n IH]; intros p H1 H2; cbn [get_pixels]; [reflexivity|].
    rewrite Hget by (assumption || lia). cbn [obind]. rewrite IH by lia. cbn [obind].
    rewrite zseq_S. cbn [map]. rewrite pixel_at by lia. do 3 f_equal. f_equal. lia.
  Qed.

  Lemma read_between_ok C buf comps : holds_all C buf comps -> forall n k, 0 <= k -> k + Z.of_nat n <= C ->
    read_between P N D read_c get_pixel n buf (k * D) =
      Some (map (fun g => dec (pixel comps g)) (zseq (k * N) (n * Z.to_nat N)), (k + Z.of_nat n) * D).
  Proof using Hget Hread HN HD.
    intros [Hl Hh]. induction n as [|n IH]; intros k H1 H2; cbn [read_between].
    - cbn [Nat.mul]. do 2 f_equal. lia.
    - destruct (Hh k ltac:(lia)) as [Hk1 Hk2]. rewrite (Hread buf (k * D) (comps k)) by assumption. cbn [obind].
      rewrite get_pixels_ok by (assumption || lia). cbn [obind].
      rewrite padd_ok by nia. cbn [obind]. replace (k * D + D) with ((k + 1) * D) by lia.
      rewrite IH by lia. cbn [obind]. cbn [Nat.mul]. rewrite zseq_app, map_app. do 2 f_equal.
      + do 3 f_equal; lia.
      + lia.
  Qed.

  (* numbers of rows and slots *)
  Lemma slot_bounds s x y : 0 <= width s -> 0 <= height s -> 0 <= x <= width s -> 0 <= y < height s ->
    0 <= slot aligned N (width s) x y <= num_compounds aligned N s * N.
  Proof using HN.
    intros Hw Hh Hx Hy. pose proof (slot_stride_ge aligned N (width s) ltac:(lia) Hw).
    pose proof (num_compounds_bound aligned N s ltac:(lia) Hw Hh). unfold slot. nia.
  Qed.

  Notation C_of s := (num_compounds aligned N s).

  Lemma run_read_row_ok s buf comps x y w : image_ok s -> holds_all (C_of s) buf comps -> C_of s * D < 2 ^ 63 ->
    0 <= x -> 0 <= w -> x + w <= width s -> 0 <= y < height s ->
    run_read_row P N D aligned read_c get_pixel buf (width s) x y w =
      Some (map (fun g => dec (pixel comps g)) (zseq (slot aligned N (width s) x y) (Z.to_nat w))).
  Proof using Hget Hread HN HD.
    intros [Hw Hh] Hb Hm Hx Hw' Hxw Hy. unfold run_read_row.
    rewrite iadd_ok by lia. cbn [obind].
    rewrite !get_pixel_pos_ok by lia. cbn [obind].
    pose proof (slot_bounds s x y ltac:(lia) ltac:(lia) ltac:(lia) Hy) as G0.
    pose proof (slot_bounds s (x + w) y ltac:(lia) ltac:(lia) ltac:(lia) Hy) as G1.
    assert (Es : slot aligned N (width s) (x + w) y = slot aligned N (width s) x y + w) by (unfold slot; lia).
    rewrite Es in *. set (g := slot aligned N (width s) x y) in *. set (C := C_of s) in *.
    pose proof (Z.div_mod g N ltac:(lia)) as D0. pose proof (Z.mod_pos_bound g N ltac:(lia)) as M0.
    pose proof (Z.div_mod (g + w) N ltac:(lia)) as D1. pose proof (Z.mod_pos_bound (g + w) N ltac:(lia)) as M1.
    set (bi := g / N) in *. set (bp := g mod N) in *. set (ei := (g + w) / N) in *. set (ep := (g + w) mod N) in *.
    assert (Hbe : 0 <= bi <= ei) by nia. assert (Hec : ei <= C) by nia.
    pose proof Hb as [Hl Hc].
    rewrite pdiff_ok by nia. cbn [obind]. rewrite padd_ok by nia. cbn [obind]. rewrite Z.add_0_l.
    destruct (Z.ltb_spec bi ei) as [Hlt|Hge].
    - destruct (Hc bi ltac:(lia)) as [K1 K2]. rewrite (Hread buf (bi * D) (comps bi)) by assumption. cbn [obind].
      rewrite get_pixels_ok by (assumption || lia). cbn [obind].
      rewrite padd_ok by nia. cbn [obind]. replace (bi * D + D) with ((bi + 1) * D) by lia.
      rewrite (read_between_ok C buf comps) by (assumption || lia). cbn [obind].
      replace (bi + 1 + Z.of_nat (Z.to_nat (ei - bi - 1))) with ei by lia.
      assert (Ew : Z.to_nat w = (Z.to_nat (N - bp) + (Z.to_nat (ei - bi - 1) * Z.to_nat N + Z.to_nat ep))%nat) by nia.
      rewrite Ew, !zseq_app, !map_app. replace (bi * N + bp) with g by lia.
      replace (g + Z.of_nat (Z.to_nat (N - bp))) with ((bi + 1) * N) by lia.
      destruct (Z.ltb_spec 0 ep).
      + assert (ei < C) by nia. destruct (Hc ei ltac:(lia)) as [K3 K4].
        rewrite (Hread buf (ei * D) (comps ei)) by assumption. cbn [obind].
        rewrite get_pixels_ok by (assumption || lia). cbn [obind]. rewrite <- app_assoc. do 4 f_equal.
        f_equal; [nia|lia].
      + replace (Z.to_nat ep) with 0%nat by lia. change (zseq _ 0) with (@nil Z). cbn [map]. rewrite app_nil_r. reflexivity.
    - assert (Ebe : ei = bi) by lia. rewrite Ebe, Z.eqb_refl. cbn [obind].
      destruct (Z.ltb_spec bp ep).
      + assert (bi < C) by nia. destruct (Hc bi ltac:(lia)) as [K1 K2].
        rewrite (Hread buf (bi * D) (comps bi)) by assumption. cbn [obind].
        rewrite get_pixels_ok by (assumption || lia). cbn [obind]. rewrite app_nil_l. do 3 f_equal; nia.
      + replace (Z.to_nat w) with 0%nat by nia. reflexivity.
  Qed.

  Lemma run_read_rows_ok s buf comps p t : image_ok s -> holds_all (C_of s) buf comps -> C_of s * D < 2 ^ 63 ->
    within p t s -> forall n y, 0 <= y -> y + Z.of_nat n = height t ->
    run_read_rows P N D aligned read_c get_pixel n y buf (width s) p t =
      Some (map (fun j => map (fun i => dec (pixel comps (slot aligned N (width s) (px p + i) (py p + j))))
                   (zseq 0 (Z.to_nat (width t)))) (zseq y n)).
  Proof using Hget Hread HN HD.
    intros Hs Hb Hm Hin. pose proof Hs as [Hw Hh]. destruct Hin as (H1 & H2 & H3 & H4 & H5 & H6).
    induction n as [|n IH]; intros y Hy Hn; cbn [run_read_rows]; [reflexivity|].
    rewrite iadd_ok by lia. cbn [obind]. rewrite (run_read_row_ok s buf comps) by (assumption || lia). cbn [obind].
    rewrite IH by lia. cbn [obind]. rewrite zseq_S. cbn [map]. do 2 f_equal.
    unfold zseq. rewrite !map_map. apply map_ext. intros i. do 2 f_equal. unfold slot. lia.
  Qed.

  Lemma run_read_ok s buf comps p t : image_ok s -> holds_all (C_of s) buf comps -> C_of s * D < 2 ^ 63 ->
    within p t s ->
    run_read P N D aligned read_c get_pixel buf s p t =
      Some (map (fun j => map (fun i => dec (pixel comps (slot aligned N (width s) (px p + i) (py p + j))))
                   (zseq 0 (Z.to_nat (width t)))) (zseq 0 (Z.to_nat (height t)))).
  Proof using Hget Hread HN HD.
    intros Hs Hb Hm Hin. unfold run_read. rewrite assert_contained_ok by assumption. cbn [obind].
    apply run_read_rows_ok; try assumption; try lia. destruct Hin. lia.
  Qed.

  (* writing *)

  (* Slots a to b - 1 get new pixels, all others keep theirs.  A compound with no slot
     among them is left alone. *)
  Definition updated (C a b : Z) (v : Z -> Q) (comps comps' : Z -> Z) : Prop :=
    (forall g, 0 <= g < C * N -> pixel comps' g = if (a <=? g) && (g <? b) then v g else pixel comps g) /\
    (forall k, 0 <= k < C -> (k + 1) * N <= a \/ b <= k * N \/ b <= a -> comps' k = comps k).

  Lemma updated_refl C a v comps : updated C a a v comps comps.
  Proof using. split; [|reflexivity]. intros g Hg. now replace ((a <=? g) && (g <? a)) with false by lia. Qed.

  Lemma updated_trans C a b c v x y z : a <= b <= c -> updated C a b v x y -> updated C b c v y z -> updated C a c v x z.
  Proof using HN.
    intros Ho [A1 A2] [B1 B2]. split.
    - intros g Hg. rewrite B1, A1 by assumption.
      destruct (Z.leb_spec a g), (Z.ltb_spec g b), (Z.leb_spec b g), (Z.ltb_spec g c); cbn [andb]; try reflexivity; lia.
    - intros k Hk Hd. rewrite B2, A2; try assumption; try reflexivity; nia.
  Qed.

  Lemma set_pixels_ok (tray : Z -> Z -> P) y : forall n p x c, okc c -> 0 <= p -> p + Z.of_nat n <= N ->
    (forall i, x <= i < x + Z.of_nat n -> okp (tray i y)) ->
    exists c', set_pixels P set_pixel n p x y tray c = Some c' /\ okc c' /\
      forall q, 0 <= q < N -> getq c' q = if (p <=? q) && (q <? p + Z.of_nat n) then enc (tray (x + (q - p)) y) else getq c q.
  Proof using Hset.
    induction n as [|n IH]; intros p x c Hc Hp Hpn Ht; cbn [set_pixels].
    - exists c. split; [reflexivity|]. split; [assumption|]. intros q Hq.
      replace ((p <=? q) && (q <? p + Z.of_nat 0)) with false by lia. reflexivity.
    - destruct (Hset (tray x y) c p (Ht x ltac:(lia)) Hc ltac:(lia)) as (c1 & E1 & O1 & G1 & F1). rewrite E1. cbn [obind].
      destruct (IH (p + 1) (x + 1) c1 O1 ltac:(lia) ltac:(lia)) as (c2 & E2 & O2 & G2).
      { intros i Hi. apply Ht. lia. }
      exists c2. split; [exact E2|]. split; [exact O2|]. intros q Hq. rewrite G2 by assumption.
      destruct (Z.eq_dec q p) as [->|Hne].
      + replace ((p + 1 <=? p) && (p <? p + 1 + Z.of_nat n)) with false by lia.
        replace ((p <=? p) && (p <? p + Z.of_nat (S n))) with true by lia. rewrite G1. do 2 f_equal. lia.
      + rewrite F1 by assumption.
        replace ((p <=? q) && (q <? p + Z.of_nat (S n))) with ((p + 1 <=? q) && (q <? p + 1 + Z.of_nat n)) by lia.
        destruct (_ && _); [|reflexivity]. do 2 f_equal. lia.
  Qed.

  (* a compound is replaced *)
  Lemma write_one C buf comps k c : holds_all C buf comps -> 0 <= k < C -> okc c ->
    exists buf', write_c c buf (k * D) = Some buf' /\
      holds_all C buf' (fun i => if i =? k then c else comps i).
  Proof using Hwrite Hlocal HD.
    intros [Hl Hh] Hk Hc. destruct (Hwrite c buf (k * D) Hc) as (b & E & L & S & F); [nia|nia|].
    exists b. split; [exact E|]. split; [lia|]. intros i Hi. destruct (Z.eqb_spec i k) as [->|Hne]; [split; assumption|].
    destruct (Hh i Hi) as [A1 A2]. split; [assumption|]. apply Hlocal with (b := buf) (o := i * D); [|assumption].
    intros j Hj. apply F. apply (disjoint_pixels D i k); [assumption|assumption|lia].
  Qed.

  Lemma updated_one C comps k c p n (v : Z -> Q) : 0 <= k < C -> 0 <= p -> p + n <= N -> 0 <= n ->
    (forall q, 0 <= q < N -> getq c q = if (p <=? q) && (q <? p + n) then v (k * N + q) else getq (comps k) q) ->
    (n = 0 -> c = comps k) ->
    updated C (k * N + p) (k * N + p + n) v comps (fun i => if i =? k then c else comps i).
  Proof using HN.
    intros Hk Hp Hpn Hn Hc H0. split.
    - intros g Hg. pose proof (Z.div_mod g N ltac:(lia)) as Dg. pose proof (Z.mod_pos_bound g N ltac:(lia)) as Mg.
      unfold RunSpec.pixel. destruct (Z.eqb_spec (g / N) k) as [E|E].
      + rewrite Hc by assumption. rewrite E in *.
        replace ((k * N + p <=? g) && (g <? k * N + p + n)) with ((p <=? g mod N) && (g mod N <? p + n)) by lia.
        destruct (_ && _); [|reflexivity]. f_equal. lia.
      + replace ((k * N + p <=? g) && (g <? k * N + p + n)) with false; [reflexivity|].
        symmetry. apply andb_false_iff. destruct (Z.lt_ge_cases (g / N) k); [left|right]; nia.
    - intros i Hi Hd. destruct (Z.eqb_spec i k) as [->|]; [|reflexivity]. apply H0. nia.
  Qed.

  Lemma write_between_ok C (tray : Z -> Z -> P) y : forall n k x buf comps, holds_all C buf comps -> 0 <= k -> k + Z.of_nat n <= C ->
    (forall i, x <= i < x + Z.of_nat n * N -> okp (tray i y)) ->
    exists buf' comps', write_between P N D write_c set_pixel n x y tray buf (k * D) = Some (buf', (k + Z.of_nat n) * D) /\
      holds_all C buf' comps' /\
      updated C (k * N) ((k + Z.of_nat n) * N) (fun g => enc (tray (x + (g - k * N)) y)) comps comps'.
  Proof using Hset Hwrite Hlocal Hzero HN HD.
    induction n as [|n IH]; intros k x buf comps Hb Hk Hkn Ht; cbn [write_between].
    - exists buf, comps. replace (k + Z.of_nat 0) with k by lia. split; [reflexivity|]. split; [assumption|]. apply updated_refl.
    - destruct (set_pixels_ok tray y (Z.to_nat N) 0 x 0 Hzero ltac:(lia) ltac:(lia)) as (c & E1 & O1 & G1).
      { intros i Hi. apply Ht. nia. }
      rewrite E1. cbn [obind].
      destruct (write_one C buf comps k c Hb ltac:(lia) O1) as (b1 & E2 & B1). rewrite E2. cbn [obind].
      rewrite padd_ok by (destruct B1 as [-> _]; nia). cbn [obind]. replace (k * D + D) with ((k + 1) * D) by lia.
      destruct (IH (k + 1) (x + N) b1 _ B1 ltac:(lia) ltac:(lia)) as (b2 & c2 & E3 & B2 & U2).
      { intros i Hi. apply Ht. nia. }
      exists b2, c2. split; [rewrite E3; do 3 f_equal; lia|]. split; [exact B2|].
      apply updated_trans with ((k + 1) * N) (fun i => if i =? k then c else comps i); [nia| |].
      + replace (k * N) with (k * N + 0) at 1 by lia. replace ((k + 1) * N) with (k * N + 0 + N) by lia.
        apply updated_one; try lia. intros q Hq. rewrite G1 by assumption.
        replace ((0 <=? q) && (q <? 0 + Z.of_nat (Z.to_nat N))) with true by lia.
        replace ((0 <=? q) && (q <? 0 + N)) with true by lia. do 2 f_equal. lia.
      + replace (k + Z.of_nat (S n)) with (k + 1 + Z.of_nat n) by lia. destruct U2 as [V1 V2]. split; [|exact V2].
        intros g Hg. rewrite V1 by assumption. destruct (_ && _); [|reflexivity]. do 2 f_equal. lia.
  Qed.

  Lemma run_write_row_ok s buf comps x y w ty (tray : Z -> Z -> P) : image_ok s -> holds_all (C_of s) buf comps -> C_of s * D < 2 ^ 63 ->
    0 <= x -> 0 <= w -> x + w <= width s -> 0 <= y < height s ->
    (forall i, 0 <= i < w -> okp (tray i ty)) ->
    exists buf' comps', run_write_row P N D aligned read_c write_c set_pixel buf (width s) x y w ty tray = Some buf' /\
      holds_all (C_of s) buf' comps' /\
      updated (C_of s) (slot aligned N (width s) x y) (slot aligned N (width s) x y + w)
        (fun g => enc (tray (g - slot aligned N (width s) x y) ty)) comps comps'.
  Proof using Hset Hread Hwrite Hlocal Hzero HN HD.
    intros [Hw Hh] Hb Hm Hx Hw' Hxw Hy Ht. unfold run_write_row.
    rewrite iadd_ok by lia. cbn [obind].
    rewrite !get_pixel_pos_ok by lia. cbn [obind].
    pose proof (slot_bounds s x y ltac:(lia) ltac:(lia) ltac:(lia) Hy) as G0.
    pose proof (slot_bounds s (x + w) y ltac:(lia) ltac:(lia) ltac:(lia) Hy) as G1.
    assert (Es : slot aligned N (width s) (x + w) y = slot aligned N (width s) x y + w) by (unfold slot; lia).
    rewrite Es in *. set (g := slot aligned N (width s) x y) in *. set (C := C_of s) in *.
    pose proof (Z.div_mod g N ltac:(lia)) as D0. pose proof (Z.mod_pos_bound g N ltac:(lia)) as M0.
    pose proof (Z.div_mod (g + w) N ltac:(lia)) as D1. pose proof (Z.mod_pos_bound (g + w) N ltac:(lia)) as M1.
    set (bi := g / N) in *. set (bp := g mod N) in *. set (ei := (g + w) / N) in *. set (ep := (g + w) mod N) in *.
    assert (Hbe : 0 <= bi <= ei) by nia. assert (Hec : ei <= C) by nia.
    pose proof Hb as [Hl Hc].
    rewrite pdiff_ok by nia. cbn [obind]. rewrite padd_ok by nia. cbn [obind]. rewrite Z.add_0_l.
    destruct (Z.ltb_spec bi ei) as [Hlt|Hge].
    - destruct (Hc bi ltac:(lia)) as [K1 K2]. rewrite (Hread buf (bi * D) (comps bi)) by assumption. cbn [obind].
      destruct (set_pixels_ok tray ty (Z.to_nat (N - bp)) bp 0 (comps bi) K1 ltac:(lia) ltac:(lia)) as (c & E1 & O1 & Q1).
      { intros i Hi. apply Ht. nia. }
      rewrite E1. cbn [obind].
      destruct (write_one C buf comps bi c Hb ltac:(lia) O1) as (b1 & E2 & B1). rewrite E2. cbn [obind].
      rewrite padd_ok by (destruct B1 as [-> _]; nia). cbn [obind]. replace (bi * D + D) with ((bi + 1) * D) by lia.
      destruct (write_between_ok C tray ty (Z.to_nat (ei - bi - 1)) (bi + 1) (N - bp) b1 _ B1 ltac:(lia) ltac:(lia)) as (b2 & c2 & E3 & B2 & U2).
      { intros i Hi. apply Ht. nia. }
      rewrite E3. cbn [obind]. replace (bi + 1 + Z.of_nat (Z.to_nat (ei - bi - 1))) with ei in * by lia.
      assert (U1 : updated C g ((bi + 1) * N) (fun h => enc (tray (h - g) ty)) comps (fun i => if i =? bi then c else comps i)).
      { replace g with (bi * N + bp) at 1 by lia. replace ((bi + 1) * N) with (bi * N + bp + (N - bp)) by lia.
        apply updated_one; try lia. intros q Hq. rewrite Q1 by assumption.
        replace (bp + Z.of_nat (Z.to_nat (N - bp))) with (bp + (N - bp)) by lia. destruct (_ && _); [|reflexivity].
        do 2 f_equal. lia. }
      assert (U12 : updated C g (ei * N) (fun h => enc (tray (h - g) ty)) comps c2).
      { eapply updated_trans; [|exact U1|]; [nia|]. destruct U2 as [V1 V2]. split; [|exact V2]. intros h Hg.
        rewrite V1 by assumption. destruct (_ && _); [|reflexivity]. do 2 f_equal. lia. }
      destruct (Z.ltb_spec 0 ep).
      + assert (ei < C) by nia. pose proof B2 as [_ Hc2]. destruct (Hc2 ei ltac:(lia)) as [K3 K4].
        rewrite (Hread b2 (ei * D) (c2 ei)) by assumption. cbn [obind]. rewrite Z.sub_0_r.
        destruct (set_pixels_ok tray ty (Z.to_nat ep) 0 (N - bp + (ei - bi - 1) * N) (c2 ei) K3 ltac:(lia) ltac:(lia)) as (c3 & E4 & O4 & Q4).
        { intros i Hi. apply Ht. nia. }
        rewrite E4. cbn [obind].
        destruct (write_one C b2 c2 ei c3 B2 ltac:(lia) O4) as (b3 & E5 & B3). rewrite E5.
        exists b3, (fun i => if i =? ei then c3 else c2 i). split; [reflexivity|]. split; [exact B3|].
        eapply updated_trans; [|exact U12|]; [nia|].
        replace (ei * N) with (ei * N + 0) by lia. replace (g + w) with (ei * N + 0 + ep) by lia.
        apply updated_one; try lia. intros q Hq. rewrite Q4 by assumption.
        replace (0 + Z.of_nat (Z.to_nat ep)) with (0 + ep) by lia. destruct (_ && _); [|reflexivity].
        do 2 f_equal. nia.
      + exists b2, c2. split; [reflexivity|]. split; [exact B2|]. replace (g + w) with (ei * N) by lia. exact U12.
    - assert (Ebe : ei = bi) by lia. rewrite Ebe, Z.eqb_refl in *. cbn [obind].
      destruct (Z.ltb_spec bp ep).
      + assert (bi < C) by nia. destruct (Hc bi ltac:(lia)) as [K1 K2].
        rewrite (Hread buf (bi * D) (comps bi)) by assumption. cbn [obind].
        destruct (set_pixels_ok tray ty (Z.to_nat (ep - bp)) bp 0 (comps bi) K1 ltac:(lia) ltac:(lia)) as (c & E1 & O1 & Q1).
        { intros i Hi. apply Ht. nia. }
        rewrite E1. cbn [obind].
        destruct (write_one C buf comps bi c Hb ltac:(lia) O1) as (b1 & E2 & B1). rewrite E2.
        exists b1, (fun i => if i =? bi then c else comps i). split; [reflexivity|]. split; [exact B1|].
        replace g with (bi * N + bp) at 1 2 by lia. replace w with (ep - bp) at 1 by lia.
        apply updated_one; try lia. intros q Hq. rewrite Q1 by assumption.
        replace (bp + Z.of_nat (Z.to_nat (ep - bp))) with (bp + (ep - bp)) by lia. destruct (_ && _); [|reflexivity].
        do 2 f_equal. lia.
      + assert (w = 0) by nia. subst w. exists buf, comps. split; [reflexivity|]. split; [exact Hb|]. rewrite Z.add_0_r. apply updated_refl.
  Qed.

  Lemma slot_row s i j i' j' : 0 <= width s -> 0 <= i < width s -> 0 <= i' < width s ->
    slot aligned N (width s) i j = slot aligned N (width s) i' j' -> i = i' /\ j = j'.
  Proof using HN.
    intros Hw Hi Hi'. unfold slot. pose proof (slot_stride_ge aligned N (width s) ltac:(lia) Hw).
    set (st := slot_stride aligned N (width s)) in *. intros E. apply (pixel_inj st); lia.
  Qed.

  Lemma put_row s p t y (v : Z -> Z -> Q) c0 c1 c2 : image_ok s -> within p t s -> 0 <= y < height t ->
    (let a := slot aligned N (width s) (px p) (py p + y) in
     updated (C_of s) a (a + width t) (fun g => v (g - a) y) c0 c1) ->
    tray_put s p t (y + 1) v c1 c2 -> tray_put s p t y v c0 c2.
  Proof using HN.
    intros [Hw Hh] Hin Hy [U1 U2] (T1 & T2 & T3). destruct Hin as (H1 & H2 & H3 & H4 & H5 & H6).
    set (a := slot aligned N (width s) (px p) (py p + y)) in *.
    assert (Ea : forall i, slot aligned N (width s) (px p + i) (py p + y) = a + i) by (intros; unfold a, slot; lia).
    assert (Hst : forall i j, 0 <= i < width t -> 0 <= j < height t ->
      0 <= slot aligned N (width s) (px p + i) (py p + j) < C_of s * N).
    { intros i j Hi Hj. pose proof (slot_bounds s (px p + i + 1) (py p + j) ltac:(lia) ltac:(lia) ltac:(lia) ltac:(lia)) as B.
      pose proof (slot_bounds s (px p + i) (py p + j) ltac:(lia) ltac:(lia) ltac:(lia) ltac:(lia)) as B'.
      unfold slot in *. lia. }
    assert (Hdj : forall i i' j, 0 <= i < width t -> 0 <= i' < width t -> y + 1 <= j < height t ->
      a + i <> slot aligned N (width s) (px p + i') (py p + j)).
    { intros i i' j Hi Hi' Hj E. rewrite <- Ea in E. apply slot_row in E; lia. }
    split; [|split].
    - intros i j Hi Hj. destruct (Z.eq_dec j y) as [->|Hne]; [|apply T1; lia].
      pose proof (Hst i y Hi ltac:(lia)) as B. rewrite T2; [|exact B|].
      + rewrite Ea in *. rewrite U1 by assumption. replace ((a <=? a + i) && (a + i <? a + width t)) with true by lia.
        f_equal. lia.
      + intros i' j' Hi' Hj'. rewrite Ea. now apply Hdj.
    - intros g Hg Hn. rewrite T2; [|exact Hg|intros; apply Hn; lia]. rewrite U1 by assumption.
      replace ((a <=? g) && (g <? a + width t)) with false; [reflexivity|]. symmetry.
      destruct (Z.leb_spec a g); [|reflexivity]. destruct (Z.ltb_spec g (a + width t)); [|reflexivity].
      exfalso. apply (Hn (g - a) y); [lia|lia|]. rewrite Ea. lia.
    - intros k Hk Hn. rewrite T3; [|exact Hk|intros; apply Hn; lia]. apply U2; [exact Hk|].
      destruct (Z.lt_ge_cases (width t) 1); [lia|].
      destruct (Z.le_gt_cases ((k + 1) * N) a) as [|X]; [now left|]. right. left.
      destruct (Z.le_gt_cases (a + width t) (k * N)) as [|Y]; [assumption|]. exfalso.
      set (g := Z.max a (k * N)).
      apply (Hn (g - a) y); [lia|lia|]. rewrite Ea. replace (a + (g - a)) with (k * N + (g - k * N)) by lia.
      symmetry. apply divmod. lia.
  Qed.

  Lemma put_none s p t y v c : height t <= y -> tray_put s p t y v c c.
  Proof using. intros H. split; [intros; lia|]. split; reflexivity. Qed.

  Lemma run_write_rows_ok s p t (tray : Z -> Z -> P) : image_ok s -> within p t s -> C_of s * D < 2 ^ 63 ->
    (forall i j, 0 <= i < width t -> 0 <= j < height t -> okp (tray i j)) ->
    forall n y buf comps, holds_all (C_of s) buf comps -> 0 <= y -> y + Z.of_nat n = height t ->
    exists buf' comps', run_write_rows P N D aligned read_c write_c set_pixel n y buf (width s) p t tray = Some buf' /\
      holds_all (C_of s) buf' comps' /\ tray_put s p t y (fun i j => enc (tray i j)) comps comps'.
  Proof using Hset Hread Hwrite Hlocal Hzero HN HD.
    intros Hs Hin Hm Ht. pose proof Hs as [Hw Hh]. pose proof Hin as (H1 & H2 & H3 & H4 & H5 & H6).
    induction n as [|n IH]; intros y buf comps Hb Hy Hn; cbn [run_write_rows].
    - exists buf, comps. split; [reflexivity|]. split; [exact Hb|]. apply put_none. lia.
    - rewrite iadd_ok by lia. cbn [obind].
      destruct (run_write_row_ok s buf comps (px p) (py p + y) (width t) y tray) as (b1 & c1 & E1 & B1 & U1); try assumption; try lia.
      { intros i Hi. apply Ht; lia. }
      rewrite E1. cbn [obind]. destruct (IH (y + 1) b1 c1 B1) as (b2 & c2 & E2 & B2 & U2); try lia.
      exists b2, c2. split; [exact E2|]. split; [exact B2|].
      apply (put_row s p t y) with c1; try assumption. lia.
  Qed.

  Lemma run_write_ok s p t buf comps (tray : Z -> Z -> P) : image_ok s -> within p t s -> C_of s * D < 2 ^ 63 ->
    (forall i j, 0 <= i < width t -> 0 <= j < height t -> okp (tray i j)) -> holds_all (C_of s) buf comps ->
    exists buf' comps', run_write P N D aligned read_c write_c set_pixel buf s p t tray = Some buf' /\
      holds_all (C_of s) buf' comps' /\ tray_put s p t 0 (fun i j => enc (tray i j)) comps comps'.
  Proof using Hset Hread Hwrite Hlocal Hzero HN HD.
    intros Hs Hin Hm Ht Hb. unfold run_write. rewrite assert_contained_ok by assumption. cbn [obind].
    apply run_write_rows_ok; try assumption; try lia. destruct Hin; lia.
  Qed.

  Lemma run_fill_rows_ok s p t color : image_ok s -> within p t s -> C_of s * D < 2 ^ 63 -> okp color ->
    forall n y buf comps, holds_all (C_of s) buf comps -> 0 <= y -> y + Z.of_nat n = height t ->
    exists buf' comps', run_fill_rows P N D aligned read_c write_c set_pixel n (py p + y) buf (width s) (px p) (width t) color = Some buf' /\
      holds_all (C_of s) buf' comps' /\ tray_put s p t y (fun _ _ => enc color) comps comps'.
  Proof using Hset Hread Hwrite Hlocal Hzero HN HD.
    intros Hs Hin Hm Ht. pose proof Hs as [Hw Hh]. pose proof Hin as (H1 & H2 & H3 & H4 & H5 & H6).
    induction n as [|n IH]; intros y buf comps Hb Hy Hn; cbn [run_fill_rows].
    - exists buf, comps. split; [reflexivity|]. split; [exact Hb|]. apply put_none. lia.
    - destruct (run_write_row_ok s buf comps (px p) (py p + y) (width t) 0 (fun _ _ => color)) as (b1 & c1 & E1 & B1 & U1); try assumption; try lia.
      { intros i Hi. exact Ht. }
      rewrite E1. cbn [obind]. replace (py p + y + 1) with (py p + (y + 1)) by lia.
      destruct (IH (y + 1) b1 c1 B1) as (b2 & c2 & E2 & B2 & U2); try lia.
      exists b2, c2. split; [exact E2|]. split; [exact B2|].
      apply (put_row s p t y) with c1; try assumption. lia.
  Qed.

  Lemma run_fill_ok s area buf comps color : image_ok s -> within (bpos area) (bsize area) s -> C_of s * D < 2 ^ 63 ->
    okp color -> holds_all (C_of s) buf comps ->
    exists buf' comps', run_fill P N D aligned read_c write_c set_pixel buf s area color = Some buf' /\
      holds_all (C_of s) buf' comps' /\ tray_put s (bpos area) (bsize area) 0 (fun _ _ => enc color) comps comps'.
  Proof using Hset Hread Hwrite Hlocal Hzero HN HD.
    intros Hs Hin Hm Ht Hb. unfold run_fill. rewrite assert_contained_ok by assumption. cbn [obind].
    pose proof Hin as (H1 & H2 & H3 & H4 & H5 & H6). pose proof Hs as [Hw Hh].
    rewrite iadd_ok by lia. cbn [obind].
    destruct (run_fill_rows_ok s (bpos area) (bsize area) color Hs Hin Hm Ht (Z.to_nat (height (bsize area))) 0 buf comps Hb) as (b & c & E & R); try lia.
    rewrite Z.add_0_r in E.
    replace (py (bpos area) + height (bsize area) - py (bpos area)) with (height (bsize area)) by lia.
    exists b, c. split; [exact E|exact R].
  Qed.
End Runs.
