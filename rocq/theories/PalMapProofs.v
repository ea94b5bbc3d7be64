(* Lemmas about the model of palette maps. *)
From Coq Require Import ZArith Bool List Permutation Lia.
From Verif Require Import KdtreeModel KdtreeSpec KdtreeProofs KdtreeProps PalMapModel PalMapSpec ArrLib.
Import ListNotations.
Open Scope Z_scope.

Section Read.
  Variable comp : Type.
  Variable pixel : Z -> Z -> list comp.

  Lemma write_comps_ok cs : forall done old rest, length old = length cs ->
    write_comps comp (done ++ old ++ rest) (Z.of_nat (length done)) cs = Some (done ++ cs ++ rest).
  Proof.
    induction cs as [|c cs IH]; intros done [|o old] rest H; try discriminate H; [reflexivity|].
    cbn [write_comps]. rewrite (proj2 (Z.leb_le 0 _)) by lia. rewrite Nat2Z.id.
    cbn [app]. rewrite set_nth_app. cbn [obind].
    specialize (IH (done ++ [c]) old rest). rewrite app_length in IH. cbn [length] in IH.
    replace (Z.of_nat (length done) + 1) with (Z.of_nat (length done + 1)) by lia.
    rewrite <- app_assoc in IH. cbn [app] in IH. rewrite IH by (now inversion H).
    now rewrite <- app_assoc.
  Qed.

  Variables w h nce : Z.
  Hypothesis Hw : 0 < w.
  Hypothesis Hn : 0 <= nce.
  Hypothesis Hpix : forall x y, 0 <= x < w -> 0 <= y < h -> Z.of_nat (length (pixel x y)) = nce.

  Definition range_colors (i n : nat) : list (list comp) :=
    map (fun i => color_at pixel w (Z.of_nat i)) (seq i n).

  Lemma range_colors_add i n m : range_colors i (n + m) = range_colors i n ++ range_colors (i + n) m.
  Proof. unfold range_colors. now rewrite seq_app, map_app. Qed.

  Lemma color_at_row y x : 0 <= x < w -> 0 <= y -> color_at pixel w (y * w + x) = pixel x y.
  Proof.
    intros Hx Hy. unfold color_at. replace (y * w + x) with (x + y * w) by ring.
    rewrite Z.mod_add, Z.div_add by lia. now rewrite Z.mod_small, Z.div_small by lia.
  Qed.

  Lemma split_len {A} (l : list A) n : (n <= length l)%nat ->
    exists a b, l = a ++ b /\ length a = n.
  Proof.
    intros H. exists (firstn n l), (skipn n l). split; [now rewrite firstn_skipn|].
    rewrite firstn_length. lia.
  Qed.

  Lemma get_row_ok n : forall x y done junk, 0 <= x -> x + Z.of_nat n <= w -> 0 <= y < h ->
    Z.of_nat n * nce <= Z.of_nat (length junk) ->
    exists rest, get_row comp pixel n (done ++ junk) x y (Z.of_nat (length done)) nce =
      Some (done ++ concat (range_colors (Z.to_nat (y * w + x)) n) ++ rest) /\
      Z.of_nat (length rest) = Z.of_nat (length junk) - Z.of_nat n * nce /\
      Z.of_nat (length (concat (range_colors (Z.to_nat (y * w + x)) n))) = Z.of_nat n * nce.
  Proof.
    induction n as [|n IH]; intros x y done junk Hx Hxn Hy Hj.
    - exists junk. cbn. repeat split; lia.
    - cbn [get_row]. pose proof (Hpix x y ltac:(lia) Hy) as Hp.
      assert (E : nce + Z.of_nat n * nce <= Z.of_nat (length junk)).
      { replace (Z.of_nat (S n) * nce) with (nce + Z.of_nat n * nce) in Hj by lia. exact Hj. }
      destruct (split_len junk (length (pixel x y))) as (old & rest & -> & Ho); [nia|].
      rewrite app_length in E. 
      rewrite write_comps_ok by exact Ho. cbn [obind]. rewrite app_assoc.
      destruct (IH (x + 1) y (done ++ pixel x y) rest) as (rest' & G & L1 & L2); try lia; try nia.
      rewrite app_length, Nat2Z.inj_add, Hp in G.
      exists rest'. rewrite G.
      assert (C : range_colors (Z.to_nat (y * w + x)) (S n) = pixel x y :: range_colors (Z.to_nat (y * w + (x + 1))) n).
      { unfold range_colors. cbn [seq map]. rewrite Z2Nat.id by nia. rewrite color_at_row by lia.
        do 3 f_equal. nia. }
      rewrite C. cbn [concat]. rewrite <- !app_assoc. rewrite !app_length. repeat split; nia.
  Qed.

  Lemma get_rows_ok n : forall y done junk, 0 <= y -> y + Z.of_nat n <= h ->
    Z.of_nat n * (w * nce) <= Z.of_nat (length junk) ->
    exists rest, get_rows comp pixel n w (done ++ junk) 0 y (Z.of_nat (length done)) nce (w * nce) =
      Some (done ++ concat (range_colors (Z.to_nat (y * w)) (n * Z.to_nat w)) ++ rest) /\
      Z.of_nat (length rest) = Z.of_nat (length junk) - Z.of_nat n * (w * nce) /\
      Z.of_nat (length (concat (range_colors (Z.to_nat (y * w)) (n * Z.to_nat w)))) = Z.of_nat n * (w * nce).
  Proof.
    induction n as [|n IH]; intros y done junk Hy Hyn Hj.
    - exists junk. cbn. repeat split; lia.
    - cbn [get_rows].
      destruct (get_row_ok (Z.to_nat w) 0 y done junk) as (rest & G & L1 & L2); try lia; try nia.
      rewrite Z.add_0_r in G, L2. rewrite Z2Nat.id in L1, L2 by lia.
      rewrite G. cbn [obind]. rewrite app_assoc.
      destruct (IH (y + 1) (done ++ concat (range_colors (Z.to_nat (y * w)) (Z.to_nat w))) rest)
        as (rest' & G' & L1' & L2'); try lia; try nia.
      rewrite app_length, Nat2Z.inj_add, L2 in G'. exists rest'. rewrite G'.
      replace (S n * Z.to_nat w)%nat with (Z.to_nat w + n * Z.to_nat w)%nat by lia.
      rewrite range_colors_add, concat_app, app_length.
      replace (Z.to_nat (y * w) + Z.to_nat w)%nat with (Z.to_nat ((y + 1) * w)) by nia.
      rewrite <- !app_assoc. repeat split; nia.
  Qed.
End Read.

Lemma read_ok int_max size_max diff_max comp zero (pixel : Z -> Z -> list comp) w h nce max_size :
  0 < w <= int_max -> 0 <= h <= int_max -> 1 <= nce -> w * nce <= diff_max ->
  (forall x y, 0 <= x < w -> 0 <= y < h -> Z.of_nat (length (pixel x y)) = nce) ->
  let size := palette_size int_max w h max_size in
  nce * size <= size_max -> nce <= size_max ->
  read_palette int_max size_max diff_max comp zero pixel w h nce max_size =
    Some (Done (size, concat (colors pixel w (Z.to_nat size)))).
Proof.
  intros Hw Hh Hn Hd Hpix size Hs Hs2.
  unfold read_palette. rewrite !Z.max_l by lia.
  unfold try_mul. rewrite !Z.mul_1_l. rewrite (proj2 (Z.leb_le w int_max)) by lia.
  rewrite (proj2 (Z.leb_le nce size_max)) by lia.
  assert (Es : (let s := if w * h <=? int_max then w * h else int_max in
                if (0 <=? max_size) && (max_size <? s) then max_size else s) = size).
  { subst size. unfold palette_size. cbv zeta.
    replace (Z.min int_max (w * h)) with (if w * h <=? int_max then w * h else int_max)
      by (destruct (Z.leb_spec (w * h) int_max); lia).
    set (s := if w * h <=? int_max then w * h else int_max).
    destruct (Z.leb_spec 0 max_size), (Z.ltb_spec max_size 0), (Z.ltb_spec max_size s); cbn [andb]; lia. }
  cbv zeta in Es.
  replace (match (if w * h <=? int_max then Some (w * h) else None) with Some s => s | None => int_max end)
    with (if w * h <=? int_max then w * h else int_max) by (destruct (w * h <=? int_max); reflexivity).
  rewrite Es. rewrite (proj2 (Z.leb_le _ size_max)) by lia.
  rewrite (proj2 (Z.eqb_neq w 0)) by lia. rewrite (proj2 (Z.leb_le _ diff_max)) by lia.
  assert (Hsz : 0 <= size <= w * h) by (subst size; unfold palette_size; destruct (Z.ltb_spec max_size 0); nia).
  rewrite Z.quot_div_nonneg by lia.
  set (rows := size / w).
  pose proof (Z.div_mod size w ltac:(lia)) as D. pose proof (Z.mod_pos_bound size w ltac:(lia)) as B.
  fold rows in D. set (rem := size mod w) in *.
  assert (Hr : 0 <= rows <= h) by nia.
  unfold get_block.
  destruct (get_rows_ok comp pixel w h nce ltac:(lia) ltac:(lia) Hpix (Z.to_nat rows) 0 []
              (repeat zero (Z.to_nat (nce * size)))) as (rest & G & L1 & L2); try lia.
  { rewrite repeat_length, !Z2Nat.id by nia. nia. }
  cbn [app length Z.of_nat] in G. rewrite Z.mul_0_l in G, L2. cbn [Z.to_nat] in G, L2.
  rewrite G. cbn [obind]. rewrite repeat_length, !Z2Nat.id in L1 by nia. rewrite Z2Nat.id in L2 by lia.
  replace (size - rows * w) with rem by lia.
  destruct (Z.ltb_spec 0 rem) as [R|R].
  - change (Z.to_nat 1) with 1%nat. cbn [get_rows].
    destruct (get_row_ok comp pixel w h nce ltac:(lia) ltac:(lia) Hpix (Z.to_nat rem) 0 rows
      (concat (range_colors comp pixel w 0 (Z.to_nat rows * Z.to_nat w))) rest) as (rest' & G' & L1' & L2');
      try lia; try nia.
    rewrite L2 in G'. rewrite G'. cbn [obind].
    assert (rest' = []) as -> by (destruct rest'; [reflexivity|exfalso; cbn [length] in L1'; nia]).
    rewrite app_nil_r. do 4 f_equal. rewrite <- concat_app. f_equal.
    rewrite Z.add_0_r. unfold colors. fold (range_colors comp pixel w 0 (Z.to_nat size)).
    replace (Z.to_nat size) with (Z.to_nat rows * Z.to_nat w + Z.to_nat rem)%nat by nia.
    rewrite range_colors_add. do 3 f_equal. cbn. nia.
  - assert (rest = []) as -> by (destruct rest; [reflexivity|exfalso; cbn [length] in L1; nia]).
    rewrite app_nil_r. do 4 f_equal. unfold colors. fold (range_colors comp pixel w 0 (Z.to_nat size)).
    do 3 f_equal. nia.
Qed.

Section Lookup.
  Variable comp : Type.
  Variable conv : list comp -> list Z.
  Variable nce : nat.
  Hypothesis Hn : (1 <= nce)%nat.
  Hypothesis Hconv : forall c, length c = nce -> length (conv c) = nce.

  Lemma convert_ok pal : Forall (fun c => length c = nce) pal ->
    convert_loop comp conv (length pal) (Z.of_nat nce) (concat pal) = Some (concat (map conv pal)).
  Proof.
    induction 1 as [|c pal Hc Hp IH]; [reflexivity|].
    cbn [length convert_loop concat map]. rewrite app_length.
    rewrite (proj2 (Z.leb_le _ _)) by lia. rewrite Nat2Z.id.
    assert (S1 : skipn nce (c ++ concat pal) = concat pal).
    { rewrite skipn_app, <- Hc, skipn_all, Nat.sub_diag. reflexivity. }
    assert (S2 : firstn nce (c ++ concat pal) = c).
    { rewrite firstn_app, <- Hc, firstn_all, Nat.sub_diag. cbn [firstn]. apply app_nil_r. }
    rewrite S1, IH, S2. reflexivity.
  Qed.

  Lemma nth_concat pal : Forall (fun c => length c = nce) pal -> forall i j c,
    nth_error pal i = Some c -> (j < nce)%nat -> nth (i * nce + j) (concat pal) 0 = nth j c 0.
  Proof.
    induction 1 as [|c0 pal Hc Hp IH]; intros i j c E Hj; [destruct i; discriminate E|].
    cbn [concat]. destruct i as [|i].
    - cbn in E. inversion E. subst c0. cbn [Nat.mul Nat.add]. apply app_nth1. lia.
    - cbn in E. rewrite app_nth2 by nia. rewrite <- (IH i j c E Hj). f_equal. nia.
  Qed.

  Lemma concat_len {A} (pal : list (list A)) : Forall (fun c => length c = nce) pal -> length (concat pal) = (length pal * nce)%nat.
  Proof. induction 1; [reflexivity|]. cbn [concat length]. rewrite app_length. nia. Qed.

  Lemma get_comp_ok pal i j c : Forall (fun c => length c = nce) pal ->
    0 <= i -> nth_error pal (Z.to_nat i) = Some c -> 0 <= j < Z.of_nat nce ->
    get_comp (concat pal) (Z.of_nat nce) i j = nth (Z.to_nat j) c 0.
  Proof.
    intros F Hi E Hj. unfold get_comp.
    replace (Z.to_nat (i * Z.of_nat nce + j)) with (Z.to_nat i * nce + Z.to_nat j)%nat by nia.
    apply nth_concat with (1 := F); [assumption|lia].
  Qed.

  Lemma sqdist_ok pal i c query : forall j, Forall (fun c => length c = nce) pal ->
    0 <= i -> nth_error pal (Z.to_nat i) = Some c -> (j + length query <= nce)%nat ->
    sqdist_from Z (get_comp (concat pal) (Z.of_nat nce)) (Z.of_nat j) query i =
      distance query (firstn (length query) (skipn j c)).
  Proof.
    induction query as [|q query IH]; intros j F Hi E Hl; [reflexivity|].
    cbn [sqdist_from length] in *.
    assert (Hc : length c = nce).
    { apply nth_error_In in E. rewrite Forall_forall in F. now apply F. }
    destruct (skipn j c) as [|x l] eqn:S.
    - apply (f_equal (@length _)) in S. rewrite skipn_length in S. cbn in S. lia.
    - assert (S' : skipn (j + 1) c = l).
      { replace l with (skipn 1 (skipn j c)) by now rewrite S.
        clear. revert c. induction j; intros c; [now destruct c|]. destruct c; cbn [skipn Nat.add]; [destruct j; reflexivity|]. apply IHj. }
      assert (N : nth j c 0 = x).
      { rewrite <- (firstn_skipn j c), S, app_nth2; rewrite firstn_length; [|lia].
        replace (j - Nat.min j (length c))%nat with 0%nat by lia. reflexivity. }
      cbn [firstn]. unfold distance. cbn [combine map fold_right fst snd].
      rewrite (get_comp_ok pal i _ c F Hi E) by lia. rewrite Nat2Z.id, N.
      replace (Z.of_nat j + 1) with (Z.of_nat (j + 1)) by lia.
      rewrite IH by (assumption || lia). rewrite S'. unfold distance. ring.
  Qed.

  Lemma conv_pal pal : Forall (fun c => length c = nce) pal -> Forall (fun c => length c = nce) (map conv pal).
  Proof. intros F. apply Forall_map. revert F. apply Forall_impl. apply Hconv. Qed.

  (* What a map made from the given colors is like *)
  Definition map_of (k : nat) (pal : list (list Z)) (m : palette_map) : Prop :=
    m_num_channels m = Z.of_nat k /\ m_num_channels_ext m = Z.of_nat nce /\
    m_size m = Z.of_nat (length pal) /\ m_components m = concat pal /\
    Permutation (map Z.of_nat (seq 0 (length pal))) (m_kdtree m) /\
    kd Z (get_comp (concat pal) (Z.of_nat nce)) (Z.of_nat k) 0 (m_kdtree m).

  Lemma accessible_ok pal k : (1 <= k <= nce)%nat -> Forall (fun c => length c = nce) pal ->
    accessible (concat pal) (Z.of_nat nce) (Z.of_nat (length pal)) (Z.of_nat k) = true.
  Proof.
    intros Hk F. unfold accessible. rewrite concat_len by exact F.
    destruct (Z.eqb_spec (Z.of_nat (length pal)) 0); [reflexivity|]. cbn [orb]. apply Z.ltb_lt. nia.
  Qed.

  Lemma init_ok size_max max_levels ne k pal : (1 <= k <= nce)%nat -> 0 <= max_levels ->
    nth_element_ok Z ne -> Z.of_nat (length pal) < 2 ^ max_levels ->
    Forall (fun c => length c = nce) pal ->
    Z.of_nat nce * Z.of_nat (length pal) <= size_max -> Z.of_nat nce <= size_max ->
    exists m, init size_max comp conv max_levels ne (Z.of_nat k) (Z.of_nat nce) (Z.of_nat (length pal)) (concat pal) =
      Some (Done m) /\ map_of k (map conv pal) m.
  Proof.
    intros Hk Hm Hne Hl F Hs Hs2. unfold init, try_mul. rewrite Z.mul_1_l.
    rewrite (proj2 (Z.leb_le _ size_max)) by lia. rewrite (proj2 (Z.leb_le _ size_max)) by lia.
    rewrite concat_len by exact F. rewrite (proj2 (Z.eqb_eq _ _)) by nia. cbn [negb].
    rewrite Nat2Z.id, convert_ok by exact F. cbn [obind].
    unfold setup_kdtree.
    pose proof (accessible_ok (map conv pal) k Hk (conv_pal pal F)) as A. rewrite map_length in A.
    rewrite A, Nat2Z.id.
    destruct (kdtree_sort_exact Z (get_comp (concat (map conv pal)) (Z.of_nat nce)) (Z.of_nat k) max_levels ne
                (map Z.of_nat (seq 0 (length pal)))) as (t & E & P & K); try lia; [exact Hne| |].
    { now rewrite map_length, seq_length. }
    rewrite E. cbn [obind]. eexists. split; [reflexivity|].
    unfold map_of. cbn. rewrite map_length. repeat split; assumption.
  Qed.

  Lemma lookup_ok max_levels k pal m color : (1 <= k <= nce)%nat -> 0 <= max_levels ->
    Z.of_nat (length pal) < 2 ^ max_levels -> Forall (fun c => length c = nce) pal ->
    map_of k pal m -> length color = k -> 
    (pal = [] /\ reverse_lookup max_levels m color = Some None) \/
    (exists i, reverse_lookup max_levels m color = Some (Some i) /\ nearest pal k color i).
  Proof.
    intros Hk Hm Hl F (M1 & M2 & M3 & M4 & M5 & M6) Hc.
    unfold reverse_lookup. rewrite M1, M2, M3, M4, (accessible_ok pal k Hk F), Nat2Z.id.
    assert (L : length (m_kdtree m) = length pal).
    { rewrite <- (Permutation_length M5), map_length. apply seq_length. }
    rewrite firstn_all2 by lia.
    assert (I : forall q, In q (m_kdtree m) <-> 0 <= q < Z.of_nat (length pal)).
    { intros q. split; intros H.
      - apply (Permutation_in q (Permutation_sym M5)) in H. apply in_map_iff in H.
        destruct H as (x & <- & H). apply in_seq in H. lia.
      - apply (Permutation_in q M5). apply in_map_iff. exists (Z.to_nat q). rewrite in_seq. lia. }
    destruct (kdtree_find_exact Z (get_comp (concat pal) (Z.of_nat nce)) (Z.of_nat k) max_levels color (m_kdtree m) None)
      as [(p & E & Hp & D & _)|(E & N)]; try lia; try assumption.
    - right. rewrite E. cbn [obind]. exists p. split; [reflexivity|].
      apply I in Hp. destruct (nth_error pal (Z.to_nat p)) as [c|] eqn:En; [|apply nth_error_None in En; lia].
      exists c. split; [lia|]. split; [exact En|]. intros d Hd.
      apply In_nth_error in Hd. destruct Hd as (j & Ej).
      assert (Hj : (j < length pal)%nat) by (apply nth_error_Some; now rewrite Ej).
      pose proof (D (Z.of_nat j) ltac:(apply I; lia)) as D'. unfold sqdist in D'.
      change 0 with (Z.of_nat 0) in D'.
      rewrite (sqdist_ok pal p c color 0 F ltac:(lia) En) in D' by lia.
      rewrite (sqdist_ok pal (Z.of_nat j) d color 0 F ltac:(lia)) in D' by (lia || now rewrite Nat2Z.id).
      cbn [skipn] in D'. now rewrite Hc in D'.
    - left. rewrite E. cbn [obind]. split; [|reflexivity].
      destruct pal as [|c pal]; [reflexivity|]. exfalso.
      destruct (N 0) as (x & X & _); [apply I; cbn [length]; lia|discriminate X].
  Qed.
End Lookup.
