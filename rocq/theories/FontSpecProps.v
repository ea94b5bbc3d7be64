(* Theorems about the loading of the specification of the fallback font. *)
From Coq Require Import ZArith Bool String Ascii List Arith Lia Sorted.
From Verif Require Import CInt IntModel IntSpec IntTextModel IntTextSpec IntTextProps PixelBoxModel PixelBoxSpec WildFilterModel TextParseModel TextParseSpec
  FontSpecModel FontSpecSpec FontSpecProofs FontSpecProofs2 FontSpecProofs3 FontSpecProofs4 ArrLib.
Import ListNotations.
Open Scope Z_scope.

(* text of examples *)
Definition txt (s : string) : list Z := map (fun c => Z.of_nat (nat_of_ascii c)) (list_ascii_of_string s).

(* ---- C163: code points and ranges of code points ---- *)

Theorem code_point_text_exact :
  (forall w v, parse_code_point w = Some v <-> cp_word w v) /\
  (forall w r, parse_range w = Some r <-> range_word w r) /\
  (forall first last, 0 <= first <= last -> last < 2 ^ 32 - 1 ->
    exists s, print_range (first, last) = Some s /\ range_word s (first, last) /\
      forall r, range_word s r -> r = (first, last)) /\
  (forall w v, cp_word w v -> to_char v = as_wchar v) /\
  (forall v v', 0 <= v < 2 ^ 32 -> 0 <= v' < 2 ^ 32 -> to_char v = to_char v' -> v = v').
Proof.
  assert (T : forall v, 0 <= v < 2 ^ 32 -> to_char v = as_wchar v).
  { intros v H. unfold to_char, as_wchar. destruct (Z.ltb_spec v (2 ^ 31)).
    - apply wrap_id; [cbn; lia|]. unfold in_range, imin, imax. cbn. lia.
    - apply (wrap_eq_of_cong t_int v _ 1); [cbn; lia|unfold in_range, imin, imax; cbn; lia|]. cbn. lia. }
  split; [exact parse_code_point_ok|]. split; [exact parse_range_ok|]. split; [|split].
  - intros f l H1 H2.
    assert (E : exists s, print_range (f, l) = Some s /\ parse_range s = Some (f, l)).
    { unfold print_range. destruct (print_code_point_ok f) as (a & -> & Pa); [lia|]. destruct (print_code_point_ok l) as (b & Eb & Pb); [lia|].
      destruct (Z.ltb_spec f l).
      - rewrite Eb. cbn [obind]. eexists. split; [reflexivity|]. apply parse_range_ok. right. exists a, b. split; [reflexivity|].
        split; [now apply parse_code_point_ok|]. split; [now apply parse_code_point_ok|cbn; lia].
      - exists a. split; [reflexivity|]. apply parse_range_ok. left. split; [now apply parse_code_point_ok|cbn; lia]. }
    destruct E as (s & E & P). exists s. split; [assumption|]. split; [now apply parse_range_ok|].
    intros r R. apply parse_range_ok in R. congruence.
  - intros w v H. apply T. destruct H as (N & L). split; [|lia]. eapply no_sign_nonneg; eassumption.
  - intros v v' H H' E. rewrite !T in E by assumption. unfold as_wchar in E. destruct (Z.ltb_spec v (2 ^ 31)), (Z.ltb_spec v' (2 ^ 31)); lia.
Qed.
Print Assumptions code_point_text_exact.

Example code_point_text_case :
  parse_code_point (txt "4294967294") = Some 4294967294 /\ parse_code_point (txt "4294967295") = None /\
  to_char 4294967294 = -2 /\ parse_code_point (txt "-1") = None /\
  parse_range (txt "32-126") = Some (32, 126) /\ parse_range (txt "65") = Some (65, 65) /\ parse_range (txt "126-32") = None /\
  parse_range (txt "1-2-3") = None /\ parse_range (txt "-5") = None /\
  print_range (32, 126) = Some (txt "32-126") /\ print_range (65, 65) = Some (txt "65").
Proof. do 10 (split; [vm_compute; reflexivity|]). vm_compute; reflexivity. Qed.

(* ---- C164: what is loaded ---- *)

(* Missing for the full claim: that the loading has defined behavior also if there are glyphs of negative size. *)
Theorem load_spec_partial : forall (F : Type) (parse_float : list Z -> option F) left_over init lines,
  (forall c m, int_size m -> int_size (left_over c m)) -> int_size init -> Forall (fun l => Z.of_nat (length l) < 2 ^ 64) lines ->
  (forall fs, load_spec parse_float left_over init lines = Some (Some fs) -> font_file parse_float lines fs) /\
  (forall fs, font_file parse_float lines fs ->
    load_spec parse_float left_over init lines = Some (Some fs) \/ load_spec parse_float left_over init lines = None) /\
  (load_spec parse_float left_over init lines = Some None -> forall fs, ~ font_file parse_float lines fs) /\
  (load_spec parse_float left_over init lines = None -> exists cs c, contents lines cs /\ In c cs /\ negative_size c).
Proof.
  intros F pf lo init lines Hl Hi HL. pose proof (load_spec_ok pf lo Hl init lines Hi HL) as H.
  destruct (load_spec pf lo init lines) as [[fs|]|]; (split; [|split; [|split]]); try congruence; auto.
  - intros fs' (es' & H'). destruct H as (es & H). left. destruct (font_entries_det pf lines fs es fs' es' H H') as (-> & _). reflexivity.
  - intros fs H'. exfalso. eapply H; eassumption.
Qed.
Print Assumptions load_spec_partial.

(* floating-point numbers stood for by integers *)
Definition load (lines : list string) : option (option (font_spec Z)) :=
  load_spec (parse_int t_int) (fun _ m => m) (Metrics (Size 0 0) (false, false, false) (0, 0) (0, 0) (0, 0)) (map txt lines).

Definition ex_file : list string :=
  ["# a font"; "  Some Font  # name"; ""; "65-66 97"; "100 20 0 1 1 12 13 5 15 -6 16 # metrics";
   "0 0 8 10 1 2 3 4 9 11"; "8 0 8 10 1 -2 3 4 9 11 65"; "92 10 8 10 1 2 3 4 0 0 66 97"]%string.
Definition ex_font : font_spec Z :=
  FontSpec (txt "Some Font") [(65, 66); (97, 97)] (Metrics (Size 100 20) (false, true, true) (12, 13) (5, 15) (-6, 16))
    [Glyph (Box (Pos 0 0) (Size 8 10)) (1, 2) (3, 4) 9 11; Glyph (Box (Pos 8 0) (Size 8 10)) (1, -2) (3, 4) 9 11;
     Glyph (Box (Pos 92 10) (Size 8 10)) (1, 2) (3, 4) 0 0]
    [(65, 1%nat); (66, 2%nat); (97, 2%nat)].

Example load_spec_case :
  int_size (Metrics (Size 0 0) (false, false, false) (0, 0) (0, 0) (0, 0)) /\ Forall (fun l => Z.of_nat (List.length l) < 2 ^ 64) (map txt ex_file) /\
  load ex_file = Some (Some ex_font) /\
  (* a code point of two glyphs; a glyph not within the image; overlapping ranges; a fallback glyph with a code point; no glyphs *)
  load (ex_file ++ ["0 0 8 10 1 2 3 4 9 11 97"]%string) = Some None /\
  load (ex_file ++ ["93 0 8 10 1 2 3 4 9 11 98"]%string) = Some None /\
  load ["Some Font"; "65-66 66"; "100 20 0 1 1 12 13 5 15 -6 16"; "0 0 8 10 1 2 3 4 9 11"]%string = Some None /\
  load ["Some Font"; "65-66 67"; "100 20 0 1 1 12 13 5 15 -6 16"; "0 0 8 10 1 2 3 4 9 11 65"]%string = Some None /\
  load ["Some Font"; "65-66 67"; "100 20 0 1 1 12 13 5 15 -6 16"]%string = Some None.
Proof.
  split; [split; unfold is_int; cbn; lia|]. split; [repeat constructor; vm_compute; reflexivity|]. do 5 (split; [vm_compute; reflexivity|]).
  vm_compute; reflexivity.
Qed.

(* A glyph of negative width makes the check of whether the glyph is within the image overflow: for an image as wide as possible. *)
Theorem load_spec_defined_refuted : exists lines,
  load lines = None /\ Forall (fun l => Z.of_nat (List.length l) < 2 ^ 64) (map txt lines).
Proof.
  exists ["Some Font"; "65-66"; "2147483647 20 0 1 1 12 13 5 15 -6 16"; "0 0 -1 10 1 2 3 4 9 11"]%string.
  split; [vm_compute; reflexivity|]. repeat constructor; vm_compute; reflexivity.
Qed.
Print Assumptions load_spec_defined_refuted.

(* ---- C165: use of what was loaded ---- *)

Theorem loaded_font_lookup : forall (F : Type) (parse_float : list Z -> option F) left_over init lines fs,
  (forall c m, int_size m -> int_size (left_over c m)) -> int_size init -> Forall (fun l => Z.of_nat (length l) < 2 ^ 64) lines ->
  load_spec parse_float left_over init lines = Some (Some fs) ->
  exists es, font_entries parse_float lines fs es /\
    (forall i, (i < length es)%nat <-> exists g, load_glyph fs i = Some g) /\
    (forall i g, load_glyph fs i = Some g <-> exists cps, nth_error es i = Some (g, cps)) /\
    forall ch, (exists g, load_glyph fs (find_glyph fs ch) = Some g) /\
      forall i, (0 < i)%nat -> (find_glyph fs ch = i <-> exists g cps cp, nth_error es i = Some (g, cps) /\ In cp cps /\ ch = as_wchar cp).
Proof.
  intros F pf lo init lines fs Hl Hi HL E. pose proof (load_spec_ok pf lo Hl init lines Hi HL) as H. rewrite E in H. destruct H as (es & H).
  exists es. split; [assumption|].
  assert (Eg : fs_glyphs fs = map fst es) by (destruct H as (c0 & c1 & c2 & cs & _ & _ & _ & _ & _ & _ & _ & Eg & _); exact Eg).
  assert (L : forall i, (i < length es)%nat <-> exists g, load_glyph fs i = Some g).
  { intros i. unfold load_glyph. rewrite Eg, map_length. destruct (Nat.ltb_spec i (length es)) as [Lt|Ge].
    - split; [intros _|easy]. destruct (nth_error (map fst es) i) as [g|] eqn:N; [eauto|]. apply nth_error_None in N. rewrite map_length in N. lia.
    - split; [lia|]. intros (g & N). discriminate. }
  split; [exact L|]. split.
  - intros i g. unfold load_glyph. rewrite Eg, map_length. destruct (Nat.ltb_spec i (length es)) as [Lt|Ge].
    + rewrite nth_error_map. destruct (nth_error es i) as [[g' cps]|]; cbn; split; try congruence.
      * intros N. assert (g' = g) by congruence. subst. eauto.
      * intros (cps' & N). congruence.
      * intros (cps' & N). congruence.
    + split; [discriminate|]. intros (cps & N). assert (nth_error es i <> None) as N' by congruence. apply nth_error_Some in N'. lia.
  - intros ch. destruct (find_glyph_ok pf lines fs es ch H) as (A & B). split; [|exact B]. apply L. rewrite Eg, map_length in A. exact A.
Qed.
Print Assumptions loaded_font_lookup.

Example loaded_font_lookup_case :
  load ex_file = Some (Some ex_font) /\ find_glyph ex_font 97 = 2%nat /\ find_glyph ex_font 66 = 2%nat /\ find_glyph ex_font 65 = 1%nat /\
  find_glyph ex_font 98 = 0%nat /\ load_glyph ex_font 3 = None.
Proof. do 5 (split; [vm_compute; reflexivity|]). vm_compute; reflexivity. Qed.

(* ---- C166: rendering of what was loaded ---- *)

(* Missing for the full claim: that there is no overflow when the size of the glyph is negative, and when the glyph is placed at the lowest
   of all positions. *)
Theorem render_loaded_partial : forall (F : Type) (parse_float : list Z -> option F) left_over init lines fs,
  (forall c m, int_size m -> int_size (left_over c m)) -> int_size init -> Forall (fun l => Z.of_nat (length l) < 2 ^ 64) lines ->
  load_spec parse_float left_over init lines = Some (Some fs) ->
  forall i g, load_glyph fs i = Some g ->
  forall left bottom p sz, is_int left -> is_int bottom -> is_int (px p) -> is_int (py p) -> 0 <= width sz < 2 ^ 31 -> 0 <= height sz < 2 ^ 31 ->
  let x := px p + left in
  let y := py p - (bottom + height (bsize (g_box g))) in
  let placed := Box (Pos x y) (bsize (g_box g)) in
  match do_render_glyph_mask g left bottom p sz with
  | Done (Some (src, dst)) =>
    (forall u v, in_box dst u v <-> in_box (Box (Pos 0 0) sz) u v /\ in_box placed u v) /\ (exists u v, in_box dst u v) /\
    bsize src = bsize dst /\
    px (bpos src) - px (bpos (g_box g)) = px (bpos dst) - x /\ py (bpos src) - py (bpos (g_box g)) = py (bpos dst) - y /\
    (forall u v, in_box src u v -> in_box (g_box g) u v /\ in_box (Box (Pos 0 0) (image_size (fs_metrics fs))) u v)
  | Done None => forall u v, ~ (in_box (Box (Pos 0 0) sz) u v /\ in_box placed u v)
  | Throws => ~ is_int x \/ ~ is_int y
  | Overflow => ~ is_int (bottom + height (bsize (g_box g))) \/ x = - 2 ^ 31 \/ y = - 2 ^ 31 \/
      width (bsize (g_box g)) < 0 \/ height (bsize (g_box g)) < 0
  end.
Proof.
  intros F pf lo init lines fs Hl Hi HL E i g G left bottom p sz Hlf Hb Hpx Hpy HW HH.
  pose proof (load_spec_ok pf lo Hl init lines Hi HL) as H. rewrite E in H. destruct H as (es & H).
  assert (Ig : In g (fs_glyphs fs)).
  { unfold load_glyph in G. destruct (i <? length (fs_glyphs fs))%nat; [|discriminate]. eapply nth_error_In; eassumption. }
  destruct (entries_glyph pf lines fs es g H Ig) as (cps & c & GL & II & _ & _). apply glyph_line_ints in GL as (A & B & C & D & _).
  assert (Hm : int_size (fs_metrics fs)).
  { destruct H as (c0 & c1 & c2 & cs & _ & _ & _ & M & _). eapply metrics_int; eassumption. }
  destruct Hm as (M1 & M2). apply render_ok; assumption.
Qed.
Print Assumptions render_loaded_partial.

(* the second glyph partially to the left of and above a buffer; wholly outside; overflow of the position *)
Example render_loaded_case :
  exists g, load_glyph ex_font 2 = Some g /\
    do_render_glyph_mask g 1 (-2) (Pos (-4) 5) (Size 30 40) = Done (Some (Box (Pos 95 13) (Size 5 7), Box (Pos 0 0) (Size 5 7))) /\
    do_render_glyph_mask g 1 (-2) (Pos (-20) 5) (Size 30 40) = Done None /\
    do_render_glyph_mask g 1 (-2) (Pos 2147483647 5) (Size 30 40) = Throws /\
    do_render_glyph_mask g 0 2147483647 (Pos 0 0) (Size 30 40) = Overflow.
Proof. eexists. split; [reflexivity|]. do 3 (split; [vm_compute; reflexivity|]). vm_compute; reflexivity. Qed.

(* ---- C167: glyphs that were loaded ---- *)

(* Missing for the full claim: that sizes are not negative. *)
Theorem loaded_glyphs_partial : forall (F : Type) (parse_float : list Z -> option F) left_over init lines fs g,
  (forall c m, int_size m -> int_size (left_over c m)) -> int_size init -> Forall (fun l => Z.of_nat (length l) < 2 ^ 64) lines ->
  load_spec parse_float left_over init lines = Some (Some fs) -> In g (fs_glyphs fs) ->
  0 <= horz_advance g /\ 0 <= vert_advance g /\ in_image (image_size (fs_metrics fs)) (g_box g) /\
  forall u v, in_box (g_box g) u v -> in_box (Box (Pos 0 0) (image_size (fs_metrics fs))) u v.
Proof.
  intros F pf lo init lines fs g Hl Hi HL E G. pose proof (load_spec_ok pf lo Hl init lines Hi HL) as H. rewrite E in H. destruct H as (es & H).
  destruct (entries_glyph pf lines fs es g H G) as (cps & c & _ & II & A & B). do 3 (split; [assumption|]).
  intros u v. unfold in_box, in_image in *. cbn [bpos bsize px py width height]. lia.
Qed.
Print Assumptions loaded_glyphs_partial.

Example loaded_glyphs_case : load ex_file = Some (Some ex_font) /\ In (Glyph (Box (Pos 92 10) (Size 8 10)) (1, 2) (3, 4) 0 0) (fs_glyphs ex_font).
Proof. split; [vm_compute; reflexivity|]. cbn. auto. Qed.

(* A file with a glyph of negative size is accepted, though a box is to have a size that is not negative. *)
Theorem loaded_glyph_sizes_refuted : exists lines fs g,
  load lines = Some (Some fs) /\ In g (fs_glyphs fs) /\ find_glyph fs 65 = 1%nat /\ load_glyph fs 1 = Some g /\ width (bsize (g_box g)) < 0.
Proof.
  exists ["Some Font"; "65-66"; "100 20 0 1 1 12 13 5 15 -6 16"; "0 0 8 10 1 2 3 4 9 11"; "0 0 -1 10 1 2 3 4 9 11 65"]%string.
  eexists. exists (Glyph (Box (Pos 0 0) (Size (-1) 10)) (1, 2) (3, 4) 9 11).
  split; [vm_compute; reflexivity|]. cbn. do 3 (split; [auto|]). lia.
Qed.
Print Assumptions loaded_glyph_sizes_refuted.
