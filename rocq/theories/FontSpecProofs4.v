(* Lemmas about the model of the loading of the specification of the fallback font: printing, lookup and rendering. *)
From Coq Require Import ZArith Bool List Arith Lia Sorted ZifyBool.
From Verif Require Import CInt IntModel IntSpec IntTextModel IntTextSpec IntTextProps PixelBoxModel PixelBoxSpec WildFilterModel TextParseModel TextParseSpec TextParseProofs
  FontSpecModel FontSpecSpec FontSpecProofs FontSpecProofs2 FontSpecProofs3 ArrLib.
Import ListNotations.
Open Scope Z_scope.

(* ---- printing ---- *)

Lemma print_code_point_ok cp : 0 <= cp < 2 ^ 32 - 1 -> exists s, print_code_point cp = Some s /\ parse_code_point s = Some cp.
Proof.
  intros H. unfold print_code_point.
  destruct (format_parse_round_trip Z (fun c => c) (fun c => c) t_uint false SignAuto cp 10 1 0) as (s & -> & P).
  - auto.
  - cbn; lia.
  - unfold representable. cbn. lia.
  - lia.
  - lia.
  - lia.
  - exists s. split; [reflexivity|]. unfold parse_code_point, parse_int. rewrite P. cbn [obind]. unfold try_from_int.
    assert (W : wrap t_uint (wrap t_int cp) = cp).
    { pose proof (wrap_cong t_int cp ltac:(cbn; lia)) as (k & K).
      apply (wrap_eq_of_cong t_uint _ cp k); [cbn; lia|unfold in_range, imin, imax; cbn; lia|exact K]. }
    rewrite W, Z.eqb_refl. destruct (negb (cp <? 0) && true && negb (cp =? 2 ^ 32 - 1)) eqn:E; [reflexivity|lia].
Qed.

(* ---- lookup ---- *)

Lemma code_map_in es : forall i ch j, In (ch, j) (code_map i es) <-> (i <= j)%nat /\ exists g cps cp, nth_error es (j - i) = Some (g, cps) /\ In cp cps /\ ch = as_wchar cp.
Proof.
  induction es as [|[g cps] es IH]; intros i ch j; cbn [code_map].
  - split; [easy|]. intros (_ & g & cps & cp & E & _). destruct (j - i)%nat; discriminate.
  - rewrite in_app_iff, in_map_iff, IH. split.
    + intros [(cp & E & H)|(L & g' & cps' & cp & E & H)].
      * assert (ch = as_wchar cp) by congruence. assert (j = i) by congruence. subst. split; [lia|]. rewrite Nat.sub_diag. exists g, cps, cp. auto.
      * split; [lia|]. replace (j - i)%nat with (S (j - S i)) by lia. exists g', cps', cp. auto.
    + intros (L & g' & cps' & cp & E & H & ->). destruct (Nat.eq_dec i j) as [->|N].
      * left. rewrite Nat.sub_diag in E. cbn in E. assert (cps' = cps) by congruence. subst. exists cp. auto.
      * right. split; [lia|]. replace (j - i)%nat with (S (j - S i)) in E by lia. exists g', cps', cp. auto.
Qed.

Section Load.
Context {F : Type} (parse_float : list Z -> option F).

Lemma entries_keys lines (fs : font_spec F) es : font_entries parse_float lines fs es -> NoDup (map fst (fs_glyph_map fs)).
Proof.
  intros (c0 & c1 & c2 & cs & _ & _ & _ & _ & G & _ & N & _ & ->). rewrite code_map_keys. apply NoDup_wchar; [|assumption].
  eapply glyph_lines_cps; eassumption.
Qed.

Lemma entries_first lines (fs : font_spec F) es : font_entries parse_float lines fs es -> exists g es', es = (g, []) :: es'.
Proof.
  intros (c0 & c1 & c2 & cs & _ & _ & _ & _ & G & Ne & _). inversion G as [|? c ? g cps es' ? ? ? ? H]; subst; [congruence|]. eauto.
Qed.

Lemma find_glyph_ok lines (fs : font_spec F) es ch : font_entries parse_float lines fs es ->
  (find_glyph fs ch < length (fs_glyphs fs))%nat /\
  forall i, (0 < i)%nat -> (find_glyph fs ch = i <-> exists g cps cp, nth_error es i = Some (g, cps) /\ In cp cps /\ ch = as_wchar cp).
Proof.
  intros H. pose proof (entries_keys _ _ _ H) as N. destruct (entries_first _ _ _ H) as (g0 & es' & E0).
  destruct H as (c0 & c1 & c2 & cs & _ & _ & _ & _ & G & Ne & _ & Eg & Em). unfold find_glyph.
  assert (K : forall i, lookup (fs_glyph_map fs) ch = Some i <-> exists g cps cp, nth_error es i = Some (g, cps) /\ In cp cps /\ ch = as_wchar cp).
  { intros i. split.
    - intros L. apply lookup_in in L. rewrite Em in L. apply code_map_in in L as (_ & L). now rewrite Nat.sub_0_r in L.
    - intros L. apply lookup_nodup; [assumption|]. rewrite Em. apply code_map_in. rewrite Nat.sub_0_r. split; [lia|assumption]. }
  rewrite Eg, map_length. split.
  - destruct (lookup (fs_glyph_map fs) ch) as [i|]; [|destruct es; [congruence|cbn; lia]].
    destruct (proj1 (K i) eq_refl) as (g & cps & cp & E & _). apply nth_error_Some. congruence.
  - intros i Hi. rewrite <- K. destruct (lookup (fs_glyph_map fs) ch) as [j|]; split; intros E; try congruence. lia.
Qed.

Lemma entries_glyph lines (fs : font_spec F) es g : font_entries parse_float lines fs es -> In g (fs_glyphs fs) ->
  exists cps c, glyph_line c g cps /\ in_image (image_size (fs_metrics fs)) (g_box g) /\ 0 <= horz_advance g /\ 0 <= vert_advance g.
Proof.
  intros (c0 & c1 & c2 & cs & _ & _ & _ & _ & G & _ & _ & -> & _) H. clear - G H. induction G as [|first c cs g' cps es A B C D E _ IH]; cbn in H; [easy|].
  destruct H as [<-|H]; [exists cps, c; auto|auto].
Qed.
End Load.

(* ---- rendering ---- *)

Lemma clip_dim_zero s x w : 0 <= s < 2 ^ 31 -> is_int x -> is_int w ->
  match clip_dim 0 s x w with
  | None => x = - 2 ^ 31 \/ w < 0
  | Some None => forall t, ~ (0 <= t < s /\ x <= t < x + w)
  | Some (Some (x', w')) => is_int x' /\ 0 < w' /\ x <= x' /\ x' + w' <= x + w /\ forall t, x' <= t < x' + w' <-> (0 <= t < s /\ x <= t < x + w)
  end.
Proof.
  unfold is_int, clip_dim. intros Hs Hx Hw. destruct (Z.leb_spec 0 x).
  - rewrite (isub_cases x 0). destruct ((- 2 ^ 31 <=? x - 0) && (x - 0 <? 2 ^ 31)) eqn:E1; [|lia]. cbn [obind].
    rewrite isub_cases. destruct ((- 2 ^ 31 <=? s - (x - 0)) && (s - (x - 0) <? 2 ^ 31)) eqn:E2; [|lia]. cbn [obind].
    destruct ((s - (x - 0) <=? 0) || (w <=? 0)) eqn:E3; [intros t; lia|]. split; [lia|]. split; [lia|]. split; [lia|]. split; [lia|]. intros t. lia.
  - rewrite (isub_cases 0 x). destruct ((- 2 ^ 31 <=? 0 - x) && (0 - x <? 2 ^ 31)) eqn:E1; cbn [obind]; [|lia].
    rewrite isub_cases. destruct ((- 2 ^ 31 <=? w - (0 - x)) && (w - (0 - x) <? 2 ^ 31)) eqn:E2; cbn [obind]; [|lia].
    destruct ((w - (0 - x) <=? 0) || (s <=? 0)) eqn:E3; [intros t; lia|]. split; [lia|]. split; [lia|]. split; [lia|]. split; [lia|]. intros t. lia.
Qed.

Lemma iadd_cases a b : iadd a b = if (- 2 ^ 31 <=? a + b) && (a + b <? 2 ^ 31) then Some (a + b) else None.
Proof.
  unfold iadd, in_rangeb, imin, imax. cbn.
  destruct ((-2147483648 <=? a + b) && (a + b <=? 2147483647)) eqn:E, ((-2147483648 <=? a + b) && (a + b <? 2147483648)) eqn:E'; try reflexivity; lia.
Qed.

(* rendering of a glyph whose box is within an image *)
Lemma render_ok img g left bottom p sz : is_int (width img) -> is_int (height img) ->
  is_int (px (bpos (g_box g))) -> is_int (py (bpos (g_box g))) -> is_int (width (bsize (g_box g))) -> is_int (height (bsize (g_box g))) ->
  in_image img (g_box g) -> is_int left -> is_int bottom -> is_int (px p) -> is_int (py p) -> 0 <= width sz < 2 ^ 31 -> 0 <= height sz < 2 ^ 31 ->
  let x := px p + left in
  let y := py p - (bottom + height (bsize (g_box g))) in
  let placed := Box (Pos x y) (bsize (g_box g)) in
  match do_render_glyph_mask g left bottom p sz with
  | Done (Some (src, dst)) =>
    (forall u v, in_box dst u v <-> in_box (Box (Pos 0 0) sz) u v /\ in_box placed u v) /\ (exists u v, in_box dst u v) /\
    bsize src = bsize dst /\
    px (bpos src) - px (bpos (g_box g)) = px (bpos dst) - x /\ py (bpos src) - py (bpos (g_box g)) = py (bpos dst) - y /\
    (forall u v, in_box src u v -> in_box (g_box g) u v /\ in_box (Box (Pos 0 0) img) u v)
  | Done None => forall u v, ~ (in_box (Box (Pos 0 0) sz) u v /\ in_box placed u v)
  | Throws => ~ is_int x \/ ~ is_int y
  | Overflow => ~ is_int (bottom + height (bsize (g_box g))) \/ x = - 2 ^ 31 \/ y = - 2 ^ 31 \/
      width (bsize (g_box g)) < 0 \/ height (bsize (g_box g)) < 0
  end.
Proof.
  destruct g as [[[gx gy] [gw gh]] hb vb ha va], p as [px0 py0], sz as [W H], img as [IW IH].
  unfold in_image, do_render_glyph_mask, in_box. cbn [g_box bpos bsize px py width height]. intros HIW HIH Hgx Hgy Hgw Hgh HI Hl Hb Hpx Hpy HW HH.
  unfold is_int in HIW, HIH, Hgx, Hgy, Hl, Hb, Hpx, Hpy.
  rewrite (iadd_cases bottom gh). destruct ((- 2 ^ 31 <=? bottom + gh) && (bottom + gh <? 2 ^ 31)) eqn:E1; [|unfold is_int; lia].
  rewrite (iadd_cases px0 left). destruct ((- 2 ^ 31 <=? px0 + left) && (px0 + left <? 2 ^ 31)) eqn:E2; [|unfold is_int; lia].
  rewrite (isub_cases py0 (bottom + gh)). destruct ((- 2 ^ 31 <=? py0 - (bottom + gh)) && (py0 - (bottom + gh) <? 2 ^ 31)) eqn:E3; [|unfold is_int; lia].
  set (x := px0 + left) in *. set (y := py0 - (bottom + gh)) in *.
  assert (Hx : is_int x) by (unfold is_int; lia). assert (Hy : is_int y) by (unfold is_int; lia). clearbody x y.
  unfold clip. cbn [bpos bsize px py width height].
  pose proof (clip_dim_zero W x gw HW Hx Hgw) as CX. pose proof (clip_dim_zero H y gh HH Hy Hgh) as CY.
  destruct (clip_dim 0 W x gw) as [[[x' w']|]|]; cbn [obind obox].
  3: { lia. }
  2: { intros u v (A & B). apply (CX u). lia. }
  destruct (clip_dim 0 H y gh) as [[[y' h']|]|]; cbn [obind obox].
  3: { lia. }
  2: { intros u v (A & B). apply (CY v). lia. }
  cbn [bpos bsize px py width height].
  destruct CX as (Ix & Pw & Lx & Rx & CX). destruct CY as (Iy & Ph & Ly & Ry & CY). unfold is_int in Ix, Iy, Hx, Hy, Hgw, Hgh.
  rewrite (isub_cases x' x). destruct ((- 2 ^ 31 <=? x' - x) && (x' - x <? 2 ^ 31)) eqn:E4; [|lia].
  rewrite (isub_cases y' y). destruct ((- 2 ^ 31 <=? y' - y) && (y' - y <? 2 ^ 31)) eqn:E5; [|lia].
  rewrite (iadd_cases gx (x' - x)). destruct ((- 2 ^ 31 <=? gx + (x' - x)) && (gx + (x' - x) <? 2 ^ 31)) eqn:E6; [|lia].
  rewrite (iadd_cases gy (y' - y)). destruct ((- 2 ^ 31 <=? gy + (y' - y)) && (gy + (y' - y) <? 2 ^ 31)) eqn:E7; [|lia].
  cbn [bpos bsize px py width height].
  split; [intros u v; specialize (CX u); specialize (CY v); lia|]. split; [exists x', y'; lia|]. split; [reflexivity|]. split; [lia|]. split; [lia|].
  intros u v. lia.
Qed.

(* ---- the file determines the font ---- *)

Lemma line_words_det c ws ws' : line_words c ws -> line_words c ws' -> ws = ws'.
Proof. intros (a & A & ->) (b & B & ->). apply words_of_rest in A, B. now subst. Qed.

Lemma int_word_det w v v' : int_word w v -> int_word w v' -> v = v'.
Proof. intros (A & _) (B & _). eapply numeral_value_unique; eassumption. Qed.

Lemma bool_word_det w v v' : bool_word w v -> bool_word w v' -> v = v'.
Proof. intros (x & A & X) (y & B & Y). assert (x = y) by (eapply numeral_value_unique; eassumption). destruct X as [[? ->]|[? ->]], Y as [[? ->]|[? ->]]; congruence. Qed.

Lemma forall2_det {A B} (R : A -> B -> Prop) : (forall a b b', R a b -> R a b' -> b = b') -> forall l m m', Forall2 R l m -> Forall2 R l m' -> m = m'.
Proof.
  intros D l m m' H. revert m'. induction H as [|a b l m Hab _ IH]; intros m' H'; inversion H' as [|a' b' l' m'' Hab' Hl']; subst; [reflexivity|].
  f_equal; eauto.
Qed.

Lemma cp_word_det w v v' : cp_word w v -> cp_word w v' -> v = v'.
Proof. intros A B. apply parse_code_point_ok in A, B. congruence. Qed.

Lemma range_word_det w v v' : range_word w v -> range_word w v' -> v = v'.
Proof. intros A B. apply parse_range_ok in A, B. congruence. Qed.

Lemma glyph_line_det c g cps g' cps' : glyph_line c g cps -> glyph_line c g' cps' -> (g, cps) = (g', cps').
Proof.
  destruct g as [[[x y] [w h]] [hx hy] [vx vy] ha va], g' as [[[x' y'] [w' h']] [hx' hy'] [vx' vy'] ha' va'].
  unfold glyph_line. cbn [g_box bpos bsize px py width height horz_bearing vert_bearing horz_advance vert_advance fst snd].
  intros (w0 & w1 & w2 & w3 & w4 & w5 & w6 & w7 & w8 & w9 & ws & L & A0 & A1 & A2 & A3 & A4 & A5 & A6 & A7 & A8 & A9 & A).
  intros (u0 & u1 & u2 & u3 & u4 & u5 & u6 & u7 & u8 & u9 & us & L' & B0 & B1 & B2 & B3 & B4 & B5 & B6 & B7 & B8 & B9 & B).
  pose proof (line_words_det _ _ _ L L') as E. injection E as <- <- <- <- <- <- <- <- <- <- <-.
  rewrite (int_word_det _ _ _ A0 B0), (int_word_det _ _ _ A1 B1), (int_word_det _ _ _ A2 B2), (int_word_det _ _ _ A3 B3), (int_word_det _ _ _ A4 B4),
    (int_word_det _ _ _ A5 B5), (int_word_det _ _ _ A6 B6), (int_word_det _ _ _ A7 B7), (int_word_det _ _ _ A8 B8), (int_word_det _ _ _ A9 B9),
    (forall2_det _ cp_word_det _ _ _ A B). reflexivity.
Qed.

Lemma glyph_lines_det sz first cs es : glyph_lines sz first cs es -> forall es', glyph_lines sz first cs es' -> es = es'.
Proof.
  induction 1 as [|first c cs g cps es L _ _ _ _ _ IH]; intros es' H; inversion H as [|? ? ? g' cps' es'' L' ? ? ? ? H']; subst; [reflexivity|].
  f_equal; [eapply glyph_line_det; eassumption|auto].
Qed.

Lemma font_entries_det {F} (parse_float : list Z -> option F) lines fs es fs' es' :
  font_entries parse_float lines fs es -> font_entries parse_float lines fs' es' -> fs = fs' /\ es = es'.
Proof.
  destruct fs as [n rs [[w h] [[s1 s2] s3] [r1 r2] [h1 h2] [v1 v2]] gs gm], fs' as [n' rs' [[w' h'] [[s1' s2'] s3'] [r1' r2'] [h1' h2'] [v1' v2']] gs' gm'].
  unfold font_entries. cbn [fs_family_name fs_ranges fs_metrics fs_glyphs fs_glyph_map].
  intros (c0 & c1 & c2 & cs & C & T & R & M & G & _ & _ & -> & ->) (d0 & d1 & d2 & ds & C' & T' & R' & M' & G' & _ & _ & -> & ->).
  pose proof (contents_det _ _ C _ C') as E. injection E as <- <- <- <-.
  apply trimmed_det in T, T'. rewrite T, T'. clear C C' T T'.
  destruct R as (ws & L & R & _), R' as (ws' & L' & R' & _). rewrite <- (line_words_det _ _ _ L L') in R'.
  rewrite (forall2_det _ range_word_det _ _ _ R R'). clear L L' R R'.
  unfold metrics_line in M, M'. cbn [image_size style render_size horz_baseline vert_baseline width height fst snd] in M, M', G, G'.
  destruct M as (w0 & w1 & w2 & w3 & w4 & w5 & w6 & w7 & w8 & w9 & w10 & L & A0 & A1 & A2 & A3 & A4 & A5 & A6 & A7 & A8 & A9 & A10).
  destruct M' as (u0 & u1 & u2 & u3 & u4 & u5 & u6 & u7 & u8 & u9 & u10 & L' & B0 & B1 & B2 & B3 & B4 & B5 & B6 & B7 & B8 & B9 & B10).
  pose proof (line_words_det _ _ _ L L') as E. injection E as <- <- <- <- <- <- <- <- <- <- <-.
  rewrite (int_word_det _ _ _ A0 B0), (int_word_det _ _ _ A1 B1) in G.
  rewrite (int_word_det _ _ _ A0 B0), (int_word_det _ _ _ A1 B1), (bool_word_det _ _ _ A2 B2), (bool_word_det _ _ _ A3 B3), (bool_word_det _ _ _ A4 B4),
    (int_word_det _ _ _ A7 B7), (int_word_det _ _ _ A8 B8), (int_word_det _ _ _ A9 B9), (int_word_det _ _ _ A10 B10).
  assert (r1 = r1') by congruence. assert (r2 = r2') by congruence. subst.
  rewrite (glyph_lines_det _ _ _ _ G _ G'). auto.
Qed.
