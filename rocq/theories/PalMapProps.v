(* Theorems about palette maps (src/archon/display/noinst/palette_map.hpp and .cpp). *)
From Coq Require Import ZArith Bool List Permutation Lia.
From Verif Require Import KdtreeModel KdtreeSpec KdtreeProps PalMapModel PalMapSpec PalMapProofs.
Import ListNotations.
Open Scope Z_scope.

Definition int_max := 2 ^ 31 - 1.
Definition size_max := 2 ^ 64 - 1.
Definition diff_max := 2 ^ 63 - 1.

(* C120: the palette read from an image consists of the components of its pixels in reading
   order, as many as there are, can be counted, and are asked for.  The image must have at
   least one column: otherwise there is a division by zero, also when the height is zero
   and no matter the requested number of colors.  (Widths and heights are at most int_max,
   and there is room for int_max products in the type of a stride.) *)
Theorem read_palette_exact : forall (int_max size_max diff_max : Z) (comp : Type) (zero : comp)
    (pixel : Z -> Z -> list comp) w h nce max_size,
  w <= int_max -> 0 <= h <= int_max -> 1 <= nce <= int_max -> int_max * int_max <= diff_max ->
  (forall x y, 0 <= x < w -> 0 <= y < h -> Z.of_nat (length (pixel x y)) = nce) ->
  let size := palette_size int_max w h max_size in
  nce * size <= size_max -> nce <= size_max ->
  (0 < w -> read_palette int_max size_max diff_max comp zero pixel w h nce max_size =
    Some (Done (size, concat (colors pixel w (Z.to_nat size))))) /\
  (w <= 0 -> read_palette int_max size_max diff_max comp zero pixel w h nce max_size = None).
Proof.
  intros int_max size_max diff_max comp zero pixel w h nce max_size Hw Hh Hn Hd Hpix size Hs Hs2. split; intros W.
  - apply read_ok; try assumption; try lia. nia.
  - unfold read_palette. rewrite (Z.max_r w 0) by lia. unfold try_mul.
    rewrite !Z.mul_1_l. rewrite (proj2 (Z.leb_le 0 int_max)) by lia.
    rewrite !Z.mul_0_l. rewrite (proj2 (Z.leb_le 0 int_max)) by lia.
    rewrite (proj2 (Z.leb_le nce _)) by lia.
    assert (E : (if (0 <=? max_size) && (max_size <? 0) then max_size else 0) = 0).
    { destruct (Z.leb_spec 0 max_size), (Z.ltb_spec max_size 0); cbn; lia. }
    rewrite E, Z.mul_0_r. rewrite (proj2 (Z.leb_le 0 _)) by lia. reflexivity.
Qed.

(* A 3 by 2 image with 2 channels, of which the first 5 colors are read *)
Definition pix (x y : Z) : list Z := [10 * y + x; 100].
Example read_palette_exact_case :
  read_palette int_max size_max diff_max Z 0 pix 3 2 2 5 =
    Some (Done (5, [0; 100; 1; 100; 2; 100; 10; 100; 11; 100])) /\
  read_palette int_max size_max diff_max Z 0 pix 0 2 2 5 = None.
Proof. split; reflexivity. Qed.
Example read_palette_exact_hyps :
  3 <= int_max /\ 0 <= 2 <= int_max /\ 1 <= 2 <= int_max /\ int_max * int_max <= diff_max /\
  (forall x y, 0 <= x < 3 -> 0 <= y < 2 -> Z.of_nat (length (pix x y)) = 2) /\
  2 * palette_size int_max 3 2 5 <= size_max /\ 2 <= size_max.
Proof. unfold int_max, size_max, diff_max. repeat split; cbn; lia. Qed.

(* C121: lookup in a map made from an image returns the index of a color of the palette that
   is nearest to the given color with respect to the channels that count, and returns false
   only when the palette is empty. *)
Theorem palette_map_lookup_exact : forall (int_max size_max diff_max : Z) (comp : Type) (zero : comp)
    (pixel : Z -> Z -> list comp) (conv : list comp -> list Z) max_levels ne w h k nce,
  0 < w <= int_max -> 0 <= h <= int_max -> (1 <= k <= nce)%nat -> Z.of_nat nce <= int_max ->
  int_max * int_max <= diff_max -> int_max <= size_max ->
  (forall x y, 0 <= x < w -> 0 <= y < h -> length (pixel x y) = nce) ->
  (forall c, length c = nce -> length (conv c) = nce) ->
  let size := palette_size int_max w h (-1) in
  Z.of_nat nce * size <= size_max ->
  0 <= max_levels -> int_max < 2 ^ max_levels -> nth_element_ok Z ne ->
  let palette := map conv (colors pixel w (Z.to_nat size)) in
  exists m,
    from_image int_max size_max diff_max comp zero pixel conv max_levels ne w h (Z.of_nat k) (Z.of_nat nce) =
      Some (Done m) /\
    m_size m = size /\
    forall color, length color = k ->
    (palette = [] /\ reverse_lookup max_levels m color = Some None) \/
    (exists i, reverse_lookup max_levels m color = Some (Some i) /\ nearest palette k color i).
Proof.
  intros int_max size_max diff_max comp zero pixel conv max_levels ne w h k nce
    Hw Hh Hk Hn Hd Hi Hpix Hconv size Hs Hm Hl Hne palette.
  assert (Hsz : 0 <= size <= int_max /\ size <= w * h) by (unfold size, palette_size; cbn; nia).
  unfold from_image.
  rewrite (read_ok int_max size_max diff_max comp zero pixel w h (Z.of_nat nce) (-1)); try lia; try nia;
    [|intros; now rewrite Hpix].
  cbn [ArrLib.obind]. fold size.
  set (pal := colors pixel w (Z.to_nat size)) in *.
  assert (L : length pal = Z.to_nat size) by (unfold pal, colors; now rewrite map_length, seq_length).
  assert (F : Forall (fun c => length c = nce) pal).
  { unfold pal, colors. apply Forall_map, Forall_forall. intros i Hin. apply in_seq in Hin.
    apply Hpix; [apply Z.mod_pos_bound; lia|]. split; [apply Z.div_pos; lia|]. apply Z.div_lt_upper_bound; lia. }
  replace size with (Z.of_nat (length pal)) by lia.
  destruct (init_ok comp conv nce ltac:(lia) Hconv size_max max_levels ne k pal) as (m & E & M);
    try assumption; try lia.
  exists m. split; [exact E|]. split.
  { destruct M as (_ & _ & M & _). rewrite M, map_length. reflexivity. }
  intros color Hc.
  apply (lookup_ok nce ltac:(lia) max_levels k palette m color); try assumption.
  - unfold palette. rewrite map_length. lia.
  - now apply conv_pal.
Qed.

(* The components of a color scaled down, and a palette of six colors with two channels of
   which one counts *)
Definition half (c : list Z) : list Z := map (fun x => x / 2) c.
Definition ne_z := (fun lt (_ : nat) l => isort Z lt l).
Example palette_map_lookup_exact_case :
  exists m, from_image int_max size_max diff_max Z 0 pix half 31 ne_z 3 2 1 2 = Some (Done m) /\
    reverse_lookup 31 m [4] = Some (Some 4).
Proof. eexists. split; [vm_compute; reflexivity|vm_compute; reflexivity]. Qed.
Example palette_map_lookup_exact_hyps :
  0 < 3 <= int_max /\ 0 <= 2 <= int_max /\ (1 <= 1 <= 2)%nat /\ Z.of_nat 2 <= int_max /\
  int_max * int_max <= diff_max /\ int_max <= size_max /\
  (forall x y, 0 <= x < 3 -> 0 <= y < 2 -> length (pix x y) = 2%nat) /\
  (forall c, length c = 2%nat -> length (half c) = 2%nat) /\
  Z.of_nat 2 * palette_size int_max 3 2 (-1) <= size_max /\ 0 <= 31 /\ int_max < 2 ^ 31 /\ nth_element_ok Z ne_z.
Proof.
  unfold int_max, size_max, diff_max. do 6 (split; [cbn; lia|]). split; [reflexivity|].
  split; [intros c H; unfold half; now rewrite map_length|]. do 3 (split; [cbn; lia|]). apply isort_ok.
Qed.

(* C121: likewise for a map made from components, and when the number of components does not
   agree with the size and the number of channels, the constructor throws. *)
Theorem palette_map_components_exact : forall (size_max : Z) (comp : Type) (conv : list comp -> list Z)
    max_levels ne (alpha : bool) nce pal comps,
  (1 + Nat.b2n alpha <= nce)%nat -> Forall (fun c => length c = nce) pal ->
  (forall c, length c = nce -> length (conv c) = nce) ->
  Z.of_nat nce * Z.of_nat (length pal) <= size_max -> Z.of_nat nce <= size_max ->
  0 <= max_levels -> Z.of_nat (length pal) < 2 ^ max_levels -> nth_element_ok Z ne ->
  let make := from_components size_max comp conv max_levels ne (Z.of_nat nce) alpha (Z.of_nat (length pal)) in
  (length comps <> nce * length pal -> make comps = Some Invalid_argument)%nat /\
  exists m, make (concat pal) = Some (Done m) /\
    forall color, length color = (nce - Nat.b2n alpha)%nat ->
    (pal = [] /\ reverse_lookup max_levels m color = Some None) \/
    (exists i, reverse_lookup max_levels m color = Some (Some i) /\
      nearest (map conv pal) (nce - Nat.b2n alpha) color i).
Proof.
  intros size_max comp conv max_levels ne alpha nce pal comps Hn F Hconv Hs Hs2 Hm Hl Hne make.
  split.
  - intros N. unfold make, from_components, init, try_mul. rewrite Z.mul_1_l.
    rewrite (proj2 (Z.leb_le _ size_max)) by lia. rewrite (proj2 (Z.leb_le _ size_max)) by lia.
    rewrite (proj2 (Z.eqb_neq _ _)) by nia. reflexivity.
  - set (k := (nce - Nat.b2n alpha)%nat) in *.
    assert (Hk : (1 <= k <= nce)%nat) by lia.
    destruct (init_ok comp conv nce ltac:(lia) Hconv size_max max_levels ne k pal) as (m & E & M);
      try assumption; try lia.
    exists m. split.
    + unfold make, from_components. replace (Z.of_nat nce - Z.b2z alpha) with (Z.of_nat k); [exact E|].
      destruct alpha; cbn in *; lia.
    + intros color Hc.
      destruct (lookup_ok nce ltac:(lia) max_levels k (map conv pal) m color) as [(N & R)|R]; try assumption.
      * now rewrite map_length.
      * now apply conv_pal.
      * left. split; [|exact R]. destruct pal; [reflexivity|discriminate N].
      * right. exact R.
Qed.

Definition pal3 := [[1; 1; 9]; [5; 5; 9]; [5; 1; 9]].
Example palette_map_components_exact_case :
  exists m, from_components size_max Z (fun c => c) 31 ne_z 3 true 3 (concat pal3) = Some (Done m) /\
    reverse_lookup 31 m [4; 2] = Some (Some 2) /\
    from_components size_max Z (fun c => c) 31 ne_z 3 true 3 [1; 1; 9; 5] = Some Invalid_argument.
Proof. eexists. split; [vm_compute; reflexivity|]. split; vm_compute; reflexivity. Qed.

Example palette_map_components_exact_hyps :
  (1 + Nat.b2n true <= 3)%nat /\ Forall (fun c : list Z => length c = 3%nat) pal3 /\
  Z.of_nat 3 * Z.of_nat (length pal3) <= size_max /\ Z.of_nat 3 <= size_max /\
  Z.of_nat (length pal3) < 2 ^ 31 /\ nth_element_ok Z ne_z.
Proof.
  split; [cbn; lia|]. split; [unfold pal3; repeat apply Forall_cons; try reflexivity; apply Forall_nil|].
  do 3 (split; [vm_compute; first [reflexivity|discriminate]|]). apply isort_ok.
Qed.

(* C122: a map that has been moved answers like the original when the destination happens to
   have the same number of channels already ... *)
Theorem moved_palette_map_partial : forall max_levels this m color,
  m_num_channels_ext this = m_num_channels_ext m ->
  reverse_lookup max_levels (move_assign this m) color = reverse_lookup max_levels m color /\
  m_num_channels_ext (move_assign this m) = m_num_channels_ext m /\
  m_num_channels (move_assign this m) = m_num_channels m /\ m_size (move_assign this m) = m_size m.
Proof.
  intros max_levels this m color E. unfold move_assign, move_from, reverse_lookup.
  cbn [m_num_channels m_num_channels_ext m_size m_components m_kdtree]. now rewrite E.
Qed.

Example moved_palette_map_partial_hyps : m_num_channels_ext (PaletteMap 2 3 0 [] []) =
  m_num_channels_ext (PaletteMap 2 3 3 (concat pal3) [0; 2; 1]).
Proof. reflexivity. Qed.

(* ... but not in general: after move construction, lookup of the second color of a palette
   of three colors finds another color, which is not nearest. *)
Theorem moved_palette_map_refuted :
  exists (pal : list (list Z)) m color i,
    from_components size_max Z (fun c => c) 31 ne_z 3 true 3 (concat pal) = Some (Done m) /\
    reverse_lookup 31 m color = Some (Some 1) /\ nearest pal 2 color 1 /\
    reverse_lookup 31 (move_construct m) color = Some (Some i) /\ ~ nearest pal 2 color i.
Proof.
  exists pal3. eexists. exists [5; 5]. eexists.
  split; [vm_compute; reflexivity|]. split; [vm_compute; reflexivity|]. split.
  - exists [5; 5; 9]. split; [lia|]. split; [reflexivity|].
    intros d [<-|[<-|[<-|[]]]]; cbn; lia.
  - split; [vm_compute; reflexivity|]. intros (c & _ & E & H). cbn in E. inversion E. subst c.
    specialize (H [5; 5; 9] ltac:(cbn; auto)). cbn in H. lia.
Qed.

Print Assumptions read_palette_exact.
Print Assumptions palette_map_lookup_exact.
Print Assumptions palette_map_components_exact.
Print Assumptions moved_palette_map_partial.
Print Assumptions moved_palette_map_refuted.
