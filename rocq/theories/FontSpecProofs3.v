(* Lemmas about the model of the loading of the specification of the fallback font: the file. *)
From Coq Require Import ZArith Bool List Arith Lia Sorted ZifyBool.
From Verif Require Import CInt IntModel PixelBoxModel WildFilterModel TextParseModel TextParseSpec TextParseProofs TextParseProps
  FontSpecModel FontSpecSpec FontSpecProofs FontSpecProofs2 ArrLib.
Import ListNotations.
Open Scope Z_scope.

Definition is_int (v : Z) : Prop := - 2 ^ 31 <= v < 2 ^ 31.

Lemma isub_cases a b : isub a b = if (- 2 ^ 31 <=? a - b) && (a - b <? 2 ^ 31) then Some (a - b) else None.
Proof.
  unfold isub, in_rangeb, imin, imax. cbn.
  destruct ((-2147483648 <=? a - b) && (a - b <=? 2147483647)) eqn:E, ((-2147483648 <=? a - b) && (a - b <? 2147483648)) eqn:E'; try reflexivity; lia.
Qed.

Lemma contains_dim_ok W x w : is_int W -> is_int x -> is_int w ->
  match contains_dim 0 W x w with
  | None => w < 0
  | Some r => r = true <-> 0 <= x /\ w <= W /\ x + w <= W
  end.
Proof.
  unfold is_int, contains_dim. intros HW Hx Hw. destruct ((0 <=? x) && (w <=? W)) eqn:E.
  - rewrite !isub_cases. destruct ((- 2 ^ 31 <=? x - 0) && (x - 0 <? 2 ^ 31)) eqn:E1; [|lia]. cbn [obind].
    destruct ((- 2 ^ 31 <=? W - w) && (W - w <? 2 ^ 31)) eqn:E2; cbn [obind]; [|lia]. lia.
  - lia.
Qed.

Lemma contained_ok sz b : is_int (width sz) -> is_int (height sz) -> is_int (px (bpos b)) -> is_int (py (bpos b)) ->
  is_int (width (bsize b)) -> is_int (height (bsize b)) ->
  match contained_in b (Box (Pos 0 0) sz) with
  | None => width (bsize b) < 0 \/ height (bsize b) < 0
  | Some r => r = true <-> in_image sz b
  end.
Proof.
  intros HW HH Hx Hy Hw Hh. unfold contained_in, contains, in_image. cbn [bpos bsize px py].
  pose proof (contains_dim_ok _ _ _ HW Hx Hw) as A. pose proof (contains_dim_ok _ _ _ HH Hy Hh) as B.
  destruct (contains_dim 0 (width sz) (px (bpos b)) (width (bsize b))) as [h|]; cbn [obind]; [|lia].
  destruct (contains_dim 0 (height sz) (py (bpos b)) (height (bsize b))) as [v|]; cbn [obind]; [|lia].
  rewrite andb_true_iff, A, B. lia.
Qed.

Lemma glyph_line_ints c g cps : glyph_line c g cps -> is_int (px (bpos (g_box g))) /\ is_int (py (bpos (g_box g))) /\
  is_int (width (bsize (g_box g))) /\ is_int (height (bsize (g_box g))) /\ Forall (fun cp => 0 <= cp < 2 ^ 32 - 1) cps.
Proof.
  intros (w0 & w1 & w2 & w3 & w4 & w5 & w6 & w7 & w8 & w9 & words & _ & (_ & A0) & (_ & A1) & (_ & A2) & (_ & A3) & _ & _ & _ & _ & _ & _ & FB).
  do 4 (split; [assumption|]). clear - FB. induction FB as [|w v ws vs Hw _ IH]; constructor; [|assumption].
  destruct Hw as (N & L). pose proof (no_sign_nonneg _ _ N). lia.
Qed.

Lemma glyph_line_count c g cps : glyph_line c g cps -> (length cps <= length c)%nat.
Proof.
  intros (w0 & w1 & w2 & w3 & w4 & w5 & w6 & w7 & w8 & w9 & words & L & _ & _ & _ & _ & _ & _ & _ & _ & _ & _ & FB).
  apply line_words_count in L. cbn [length] in L. assert (length words = length cps) by (clear - FB; induction FB; cbn; congruence). lia.
Qed.

Lemma glyph_line_det c g cps g' cps' : Z.of_nat (length c) < 2 ^ 64 -> glyph_line c g cps -> glyph_line c g' cps' -> g = g' /\ cps = cps'.
Proof.
  intros L H H'. pose proof (glyph_line_count _ _ _ H). pose proof (glyph_line_count _ _ _ H').
  assert (E : parse_line_seq space c glyph_fields code_points_seq 0 (2 ^ 64 - 1) (no_glyph, []) = Some (Parsed (g, cps))) by (apply glyph_parsed; [lia|lia|split; [assumption|lia]]).
  assert (E' : parse_line_seq space c glyph_fields code_points_seq 0 (2 ^ 64 - 1) (no_glyph, []) = Some (Parsed (g', cps'))) by (apply glyph_parsed; [lia|lia|split; [assumption|lia]]).
  split; congruence.
Qed.

(* ---- the glyph map ---- *)

Lemma to_char_ok cp : 0 <= cp < 2 ^ 32 -> to_char cp = as_wchar cp.
Proof.
  intros H. unfold to_char, as_wchar. destruct (Z.ltb_spec cp (2 ^ 31)).
  - apply wrap_id; [cbn; lia|]. unfold in_range, imin, imax. cbn. lia.
  - apply (wrap_eq_of_cong t_int _ _ 1); [cbn; lia|unfold in_range, imin, imax; cbn; lia|cbn; lia].
Qed.

Lemma lookup_none map ch : lookup map ch = None <-> ~ In ch (List.map fst map).
Proof.
  induction map as [|[c i] map IH]; cbn; [tauto|]. destruct (Z.eqb_spec c ch); [split; [discriminate|tauto]|]. rewrite IH. tauto.
Qed.

Lemma lookup_in map ch i : lookup map ch = Some i -> In (ch, i) map.
Proof.
  induction map as [|[c j] map IH]; cbn; [discriminate|]. destruct (Z.eqb_spec c ch) as [->|]; intros E; [left; congruence|auto].
Qed.

Lemma lookup_nodup map ch i : NoDup (List.map fst map) -> In (ch, i) map -> lookup map ch = Some i.
Proof.
  induction map as [|[c j] map IH]; cbn; intros N H; [easy|]. inversion N as [|? ? N1 N2]; subst. destruct H as [E|H].
  - injection E as -> ->. now rewrite Z.eqb_refl.
  - destruct (Z.eqb_spec c ch) as [->|]; [|auto]. destruct N1. now apply (in_map fst) in H.
Qed.

Lemma NoDup_snoc {A} (l : list A) x : NoDup l -> ~ In x l -> NoDup (l ++ [x]).
Proof. intros N H. apply NoDup_Add with (a := x) (l := l); [rewrite <- (app_nil_r l) at 1; apply Add_app|auto]. Qed.

Lemma NoDup_app_l {A} (a b : list A) : NoDup (a ++ b) -> NoDup a.
Proof. induction a as [|x a IH]; cbn; intros N; [constructor|]. inversion N; subst. constructor; [rewrite in_app_iff in *; tauto|auto]. Qed.

Lemma add_code_points_ok i cps : Forall (fun cp => 0 <= cp < 2 ^ 32 - 1) cps -> forall m, NoDup (map fst m) ->
  let m' := m ++ map (fun cp => (as_wchar cp, i)) cps in
  (add_code_points m i cps = (false, m') /\ NoDup (map fst m')) \/ (fst (add_code_points m i cps) = true /\ ~ NoDup (map fst m')).
Proof.
  induction 1 as [|cp cps Hc _ IH]; intros m N m'; cbn [add_code_points map] in *.
  - left. subst m'. rewrite app_nil_r. auto.
  - rewrite to_char_ok by lia. unfold emplace. destruct (lookup m (as_wchar cp)) as [j|] eqn:E.
    + right. split; [reflexivity|]. intros D. subst m'. rewrite map_app in D. cbn in D. apply NoDup_remove_2 in D. apply D.
      rewrite in_app_iff. left. apply lookup_in in E. now apply (in_map fst) in E.
    + apply lookup_none in E. assert (N' : NoDup (map fst (m ++ [(as_wchar cp, i)]))) by (rewrite map_app; now apply NoDup_snoc).
      specialize (IH _ N'). cbv zeta in IH. rewrite <- app_assoc in IH. exact IH.
Qed.

(* ---- glyph lines ---- *)

Section Load.
Context {F : Type} (parse_float : list Z -> option F) (left_over : list Z -> metrics F -> metrics F).
Notation state := (state F).
Implicit Types st : state.

Definition int_size (m : metrics F) : Prop := is_int (width (image_size m)) /\ is_int (height (image_size m)).

Definition good_entry (sz : size) (first : bool) (c : list Z) (g : glyph) (cps : list Z) : Prop :=
  glyph_line c g cps /\ in_image sz (g_box g) /\ 0 <= horz_advance g /\ 0 <= vert_advance g /\ (if first then cps = [] else cps <> []).

Definition next_map st (cps : list Z) := glyph_map st ++ map (fun cp => (as_wchar cp, length (glyphs st))) cps.

Lemma glyph_spec_ok c st : int_size (mets st) -> Z.of_nat (length c) < 2 ^ 64 -> NoDup (map fst (glyph_map st)) ->
  match glyph_spec c st with
  | None => negative_size c
  | Some st' =>
    (exists g cps, good_entry (image_size (mets st)) (negb (have_fallback_glyph st)) c g cps /\ NoDup (map fst (next_map st cps)) /\
      st' = State (family_name st) (ranges st) (mets st) (next_map st cps) (glyphs st ++ [g]) (have_family_name st) (have_code_point_ranges st)
        (have_font_metrics st) true (have_error st)) \/
    (have_error st' = true /\ forall g cps, good_entry (image_size (mets st)) (negb (have_fallback_glyph st)) c g cps -> ~ NoDup (map fst (next_map st cps)))
  end.
Proof.
  intros (HW & HH) L N. unfold glyph_spec. rewrite negb_involutive.
  set (mm := if have_fallback_glyph st then (1, 2 ^ 64 - 1) else (0, 0)).
  assert (Em : 0 <= fst mm < 2 ^ 64 /\ 0 <= snd mm < 2 ^ 64) by (subst mm; destruct (have_fallback_glyph st); cbn; lia).
  assert (Hcps : forall g cps, glyph_line c g cps -> (fst mm <= Z.of_nat (length cps) <= snd mm <-> if negb (have_fallback_glyph st) then cps = [] else cps <> [])).
  { intros g cps Hg. apply glyph_line_count in Hg. subst mm. destruct (have_fallback_glyph st); cbn [negb fst snd]; destruct cps; cbn [length] in *;
      (split; intros ?; [first [lia|discriminate|reflexivity]|first [lia|congruence]]). }
  destruct mm as [min max]. cbn [fst snd] in *. destruct Em as (Hmin & Hmax).
  destruct (parse_line_seq_exact _ _ space c glyph_fields code_points_seq min max (no_glyph, []) Hmin Hmax) as ((r & Er) & _). rewrite Er. cbn [obind].
  assert (Bad : (forall g cps, r <> Parsed (g, cps)) -> forall g cps, good_entry (image_size (mets st)) (negb (have_fallback_glyph st)) c g cps -> False).
  { intros Hr g cps (Hg & _ & _ & _ & Hc). apply (Hcps _ _ Hg) in Hc. apply (Hr g cps).
    assert (E : parse_line_seq space c glyph_fields code_points_seq min max (no_glyph, []) = Some (Parsed (g, cps))) by (apply glyph_parsed; auto). congruence. }
  destruct r as [[g cps]| | |]; try (right; split; [cbn; apply orb_true_r|]; intros g cps Hg; destruct (Bad ltac:(discriminate) g cps Hg)).
  clear Bad. apply glyph_parsed in Er; [|assumption|assumption]. destruct Er as (Hg & Hn). apply (Hcps _ _ Hg) in Hn.
  destruct (glyph_line_ints _ _ _ Hg) as (Ix & Iy & Iw & Ih & Hcp).
  pose proof (contained_ok (image_size (mets st)) (g_box g) HW HH Ix Iy Iw Ih) as C.
  assert (Det : forall g' cps', good_entry (image_size (mets st)) (negb (have_fallback_glyph st)) c g' cps' -> g = g' /\ cps = cps')
    by (intros g' cps' (Hg' & _); eapply glyph_line_det; eassumption).
  destruct (contained_in (g_box g) (Box (Pos 0 0) (image_size (mets st)))) as [inside|]; cbn [obind]; [|exists g, cps; auto].
  destruct inside; cbn [negb].
  - destruct ((horz_advance g <? 0) || (vert_advance g <? 0)) eqn:Ea.
    + right. split; [cbn; apply orb_true_r|]. intros g' cps' Hg'. destruct (Det _ _ Hg') as (<- & <-). destruct Hg' as (_ & _ & A & B & _). lia.
    + pose proof (add_code_points_ok (length (glyphs st)) cps Hcp (glyph_map st) N) as D. cbv zeta in D. fold (next_map st cps) in D.
      destruct D as [(E & D)|(E & D)].
      * rewrite E. left. exists g, cps. split; [|split; [exact D|now rewrite orb_false_r]].
        split; [assumption|]. split; [now apply C|]. split; [lia|]. split; [lia|assumption].
      * destruct (add_code_points (glyph_map st) (length (glyphs st)) cps) as [e m]. cbn in E. subst e. right. split; [cbn; apply orb_true_r|].
        intros g' cps' Hg'. destruct (Det _ _ Hg') as (<- & <-). exact D.
  - right. split; [cbn; apply orb_true_r|]. intros g' cps' Hg'. destruct (Det _ _ Hg') as (<- & <-). destruct Hg' as (_ & A & _). apply C in A. discriminate.
Qed.

(* an error is not forgotten, and only glyph lines overflow *)
Lemma glyph_spec_none c st : int_size (mets st) -> glyph_spec c st = None -> negative_size c.
Proof.
  intros (HW & HH) E. unfold glyph_spec in E. rewrite negb_involutive in E.
  set (mm := if have_fallback_glyph st then (1, 2 ^ 64 - 1) else (0, 0)) in *.
  assert (Em : 0 <= fst mm < 2 ^ 64 /\ 0 <= snd mm < 2 ^ 64) by (subst mm; destruct (have_fallback_glyph st); cbn; lia).
  destruct mm as [min max]. cbn [fst snd] in *. destruct Em as (Hmin & Hmax).
  destruct (parse_line_seq_exact _ _ space c glyph_fields code_points_seq min max (no_glyph, []) Hmin Hmax) as ((r & Er) & _). rewrite Er in E. cbn [obind] in E.
  destruct r as [[g cps]| | |]; try discriminate. apply glyph_parsed in Er; [|assumption|assumption]. destruct Er as (Hg & _).
  destruct (glyph_line_ints _ _ _ Hg) as (Ix & Iy & Iw & Ih & _).
  pose proof (contained_ok (image_size (mets st)) (g_box g) HW HH Ix Iy Iw Ih) as C.
  destruct (contained_in (g_box g) (Box (Pos 0 0) (image_size (mets st)))) as [inside|]; cbn [obind] in E; [|exists g, cps; auto].
  destruct inside; cbn [negb] in E; [|discriminate]. destruct ((horz_advance g <? 0) || (vert_advance g <? 0)); [discriminate|].
  destruct (add_code_points (glyph_map st) (length (glyphs st)) cps). discriminate.
Qed.

Lemma glyph_spec_keeps c st st' : glyph_spec c st = Some st' ->
  mets st' = mets st /\ have_font_metrics st' = have_font_metrics st /\ (have_error st = true -> have_error st' = true).
Proof.
  unfold glyph_spec. destruct (if negb (negb (have_fallback_glyph st)) then (1, 2 ^ 64 - 1) else (0, 0)) as [min max].
  destruct (parse_line_seq space c glyph_fields code_points_seq min max (no_glyph, [])) as [r|]; [|discriminate]. cbn [obind].
  intros E. destruct r as [[g cps]| | |];
    [destruct (contained_in (g_box g) (Box (Pos 0 0) (image_size (mets st)))) as [inside|]; [|discriminate]; cbn [obind] in E;
     destruct (negb inside); [|destruct ((horz_advance g <? 0) || (vert_advance g <? 0)); [|destruct (add_code_points (glyph_map st) (length (glyphs st)) cps) as [e m]]]| | |];
    injection E as <-; cbn; (split; [reflexivity|split; [reflexivity|now intros ->]]).
Qed.

Hypothesis left_over_int : forall c m, int_size m -> int_size (left_over c m).

Lemma metrics_int c m : metrics_line parse_float c m -> int_size m.
Proof. intros (w0 & w1 & w2 & w3 & w4 & w5 & w6 & w7 & w8 & w9 & w10 & _ & (_ & A) & (_ & B) & _). split; assumption. Qed.

Lemma on_content_keeps c st : int_size (mets st) ->
  match on_content parse_float left_over c st with
  | None => negative_size c
  | Some st' => int_size (mets st') /\ (have_error st = true -> have_error st' = true)
  end.
Proof.
  intros Hi. unfold on_content. destruct (have_font_metrics st) eqn:Ef.
  - destruct (glyph_spec c st) as [st'|] eqn:E; [|eapply glyph_spec_none; eassumption]. apply glyph_spec_keeps in E as (-> & _ & E). auto.
  - destruct (have_code_point_ranges st).
    + unfold font_metrics_spec. destruct (parse_line space c (metrics_fields parse_float) (mets st)) eqn:E; cbn; split;
        try (now intros ->); auto. apply metrics_parsed in E. eapply metrics_int; eassumption.
    + destruct (have_family_name st); [|cbn; auto]. unfold code_point_ranges.
      destruct (parse_line_seq_exact _ _ space c [] ranges_seq 1 (2 ^ 64 - 1) (ranges st) ltac:(lia) ltac:(lia)) as ((r & ->) & _). cbn [obind].
      destruct r; cbn; (split; [assumption|now intros ->]).
Qed.

Lemma on_contents_keeps cs : forall st, int_size (mets st) ->
  match on_contents parse_float left_over cs st with
  | None => exists c, In c cs /\ negative_size c
  | Some st' => have_error st = true -> have_error st' = true
  end.
Proof.
  induction cs as [|c cs IH]; intros st Hi; cbn [on_contents]; [auto|]. pose proof (on_content_keeps c st Hi) as K.
  destruct (on_content parse_float left_over c st) as [st1|]; cbn [obind]; [|exists c; cbn; auto]. destruct K as (Hi1 & K). specialize (IH st1 Hi1).
  destruct (on_contents parse_float left_over cs st1) as [st2|]; [auto|]. destruct IH as (d & Hd & Hn). exists d. cbn. auto.
Qed.

(* all glyph lines *)
Lemma glyph_contents cs : forall st, have_font_metrics st = true -> int_size (mets st) -> have_error st = false -> NoDup (map fst (glyph_map st)) ->
  Forall (fun c => Z.of_nat (length c) < 2 ^ 64) cs -> forall st', on_contents parse_float left_over cs st = Some st' ->
  (exists es, glyph_lines (image_size (mets st)) (negb (have_fallback_glyph st)) cs es /\
    NoDup (map fst (glyph_map st ++ code_map (length (glyphs st)) es)) /\
    st' = State (family_name st) (ranges st) (mets st) (glyph_map st ++ code_map (length (glyphs st)) es) (glyphs st ++ map fst es)
      (have_family_name st) (have_code_point_ranges st) true (match es with [] => have_fallback_glyph st | _ => true end) false) \/
  (have_error st' = true /\ forall es, glyph_lines (image_size (mets st)) (negb (have_fallback_glyph st)) cs es ->
    ~ NoDup (map fst (glyph_map st ++ code_map (length (glyphs st)) es))).
Proof.
  induction cs as [|c cs IH]; intros st Hf Hi He N HL st' E; cbn [on_contents] in E.
  - left. exists []. cbn. rewrite !app_nil_r. split; [constructor|]. split; [assumption|]. destruct st; cbn in *. congruence.
  - unfold on_content in E. rewrite Hf in E. inversion HL as [|? ? HLc HLs]; subst. pose proof (glyph_spec_ok c st Hi HLc N) as G.
    destruct (glyph_spec c st) as [st1|] eqn:E1; [|discriminate]. cbn [obind] in E. destruct G as [(g & cps & Hg & Nd & ->)|(Her & Hno)].
    + match type of E with on_contents _ _ _ ?s = _ => specialize (IH s Hf Hi He Nd HLs st' E) end. cbn [glyph_map glyphs mets image_size have_fallback_glyph negb family_name ranges have_family_name have_code_point_ranges] in IH.
      rewrite app_length in IH. cbn [length] in IH. replace (length (glyphs st) + 1)%nat with (S (length (glyphs st))) in IH by lia.
      destruct IH as [(es & Hes & Nes & ->)|(Her & Hno)].
      * left. exists ((g, cps) :: es). cbn [code_map map fst]. unfold next_map in *. rewrite <- !app_assoc in *. destruct Hg as (A & B & C & D & G).
        split; [constructor; assumption|]. split; [assumption|]. cbn. now destruct es.
      * right. split; [assumption|]. intros es Hes. inversion Hes as [|? ? ? g' cps' es' A B C D G Hes']; subst.
        destruct Hg as (A' & _). destruct (glyph_line_det _ _ _ _ _ HLc A A') as (-> & ->). cbn [code_map]. rewrite app_assoc. apply Hno. assumption.
    + right. pose proof (glyph_spec_keeps _ _ _ E1) as (K1 & _ & _).
      assert (Hi1 : int_size (mets st1)) by (rewrite K1; assumption).
      pose proof (on_contents_keeps cs st1 Hi1) as K. rewrite E in K. split; [auto|].
      intros es Hes D. inversion Hes as [|? ? ? g' cps' es' A B C D' G Hes']; subst.
      apply (Hno g' cps'); [do 4 (split; [assumption|]); assumption|]. cbn [code_map] in D. rewrite app_assoc, map_app in D. apply NoDup_app_l in D. exact D.
Qed.

(* ---- the file ---- *)

Lemma code_map_keys es : forall i, map fst (code_map i es) = map as_wchar (concat (map snd es)).
Proof.
  induction es as [|[g cps] es IH]; intros i; cbn; [reflexivity|]. rewrite !map_app, IH, map_map. reflexivity.
Qed.

Lemma glyph_lines_cps sz first cs es : glyph_lines sz first cs es -> Forall (fun cp => 0 <= cp < 2 ^ 32 - 1) (concat (map snd es)).
Proof.
  induction 1 as [|first c cs g cps es Hg _ _ _ _ _ IH]; cbn; [constructor|]. apply Forall_app. split; [|assumption]. apply glyph_line_ints in Hg. apply Hg.
Qed.

Lemma NoDup_wchar l : Forall (fun cp => 0 <= cp < 2 ^ 32 - 1) l -> (NoDup (map as_wchar l) <-> NoDup l).
Proof.
  intros H. split; [apply NoDup_map_inv|]. intros N. induction N as [|x l Nx _ IH]; cbn; [constructor|]. inversion H as [|? ? Hx Hl]; subst.
  constructor; [|auto]. intros I. apply in_map_iff in I as (y & E & Hy). rewrite Forall_forall in Hl. pose proof (Hl y Hy).
  assert (x = y); [|congruence]. unfold as_wchar in E. destruct (Z.ltb_spec y (2 ^ 31)), (Z.ltb_spec x (2 ^ 31)); lia.
Qed.

Lemma glyph_lines_length sz first cs es : glyph_lines sz first cs es -> length es = length cs.
Proof. induction 1; cbn; congruence. Qed.

Lemma load_spec_ok init lines : int_size init -> Forall (fun l => Z.of_nat (length l) < 2 ^ 64) lines ->
  match load_spec parse_float left_over init lines with
  | Some (Some fs) => font_file parse_float lines fs
  | Some None => forall fs, ~ font_file parse_float lines fs
  | None => exists cs c, contents lines cs /\ In c cs /\ negative_size c
  end.
Proof.
  intros Hi HL. destruct (contents_total lines) as (cs & Hc). unfold load_spec. rewrite (on_lines_contents _ _ _ _ Hc).
  pose proof (contents_length _ _ _ Hc HL) as HLc.
  assert (Short : (forall c0 c1 c2 c3 cs', cs <> c0 :: c1 :: c2 :: c3 :: cs') -> forall fs, ~ font_file parse_float lines fs).
  { intros Hs fs (es & c0 & c1 & c2 & cs' & Hc' & _ & _ & _ & Hg & Ne & _). pose proof (contents_det _ _ Hc _ Hc').
    destruct cs' as [|c3 cs']; [apply glyph_lines_length in Hg; destruct es; [congruence|discriminate]|]. eapply Hs; eassumption. }
  set (st0 := State [] [] init [] [] false false false false false).
  destruct cs as [|c0 cs]; [cbn; apply Short; discriminate|]. cbn [on_contents]. unfold on_content at 1. cbn [have_font_metrics have_code_point_ranges have_family_name st0 obind].
  set (st1 := State (trim c0) (ranges st0) (mets st0) (glyph_map st0) (glyphs st0) true false false (have_fallback_glyph st0) (have_error st0)).
  assert (T0 : ~ blank c0) by (clear - Hc; remember (c0 :: cs) as l eqn:El; induction Hc; [discriminate|auto|congruence]).
  pose proof (trim_ok _ T0) as T.
  destruct cs as [|c1 cs]; [cbn; apply Short; discriminate|]. cbn [on_contents].
  inversion HLc as [|? ? _ HLc1]; subst. inversion HLc1 as [|? ? HL1 HLc2]; subst.
  (* ranges *)
  pose proof (on_content_keeps c1 st1 Hi) as K1.
  destruct (on_content parse_float left_over c1 st1) as [st2|] eqn:E1; cbn [obind]; [|eexists _, c1; split; [eassumption|]; split; [cbn; auto|assumption]].
  destruct K1 as (Hi2 & _).
  assert (R : (exists rs, ranges_line c1 rs /\ st2 = State (trim c0) rs init [] [] true true false false false) \/
    (have_error st2 = true /\ have_font_metrics st2 = false /\ forall rs, ~ ranges_line c1 rs)).
  { unfold on_content in E1. cbn [have_font_metrics have_code_point_ranges have_family_name st1] in E1. unfold code_point_ranges in E1. cbn [ranges st1 st0] in E1.
    destruct (parse_line_seq_exact _ _ space c1 [] ranges_seq 1 (2 ^ 64 - 1) [] ltac:(lia) ltac:(lia)) as ((r & Er) & _). rewrite Er in E1. cbn [obind] in E1.
    destruct r as [rs| | |].
    - destruct (check_ranges None rs) eqn:Ek.
      + left. exists rs. split; [apply ranges_checked; auto|]. cbn in E1. congruence.
      + right. assert (E2 := E1). injection E2 as <-. cbn. split; [reflexivity|]. split; [reflexivity|]. intros rs' H. apply ranges_checked in H; [|assumption]. destruct H. congruence.
    - right. assert (E2 := E1). injection E2 as <-. cbn. split; [reflexivity|]. split; [reflexivity|]. intros rs' H. apply ranges_checked in H; [|assumption]. destruct H. congruence.
    - right. assert (E2 := E1). injection E2 as <-. cbn. split; [reflexivity|]. split; [reflexivity|]. intros rs' H. apply ranges_checked in H; [|assumption]. destruct H. congruence.
    - right. assert (E2 := E1). injection E2 as <-. cbn. split; [reflexivity|]. split; [reflexivity|]. intros rs' H. apply ranges_checked in H; [|assumption]. destruct H. congruence. }
  destruct R as [(rs & Hrs & ->)|(Her & _ & Hno)].
  2: { pose proof (on_contents_keeps cs st2 Hi2) as K. destruct (on_contents parse_float left_over cs st2) as [st'|]; cbn [obind].
    - rewrite (K Her). intros fs (es & d0 & d1 & d2 & ds & Hc' & _ & Hr & _). pose proof (contents_det _ _ Hc _ Hc') as Ed. assert (d1 = c1) by congruence. subst d1. exact (Hno _ Hr).
    - destruct K as (d & Hd & Hn). eexists _, d. split; [eassumption|]. cbn. auto. }
  clear E1 Hi2. destruct cs as [|c2 cs]; [cbn; apply Short; discriminate|]. cbn [on_contents]. unfold on_content at 1. cbn [have_font_metrics have_code_point_ranges obind].
  (* metrics *)
  unfold font_metrics_spec. cbn [mets].
  assert (M : forall m, parse_line space c2 (metrics_fields parse_float) init = Parsed m <-> metrics_line parse_float c2 m) by (intros m; apply metrics_parsed).
  destruct (parse_line space c2 (metrics_fields parse_float) init) as [m| | |] eqn:Em; [|(match goal with |- context [on_contents _ _ cs ?s] => pose proof (on_contents_keeps cs s (left_over_int c2 init Hi)) as K; destruct (on_contents parse_float left_over cs s) as [st'|] end; cbn [obind];
    [rewrite (K eq_refl); intros fs (es & d0 & d1 & d2 & ds & Hc' & _ & _ & Hr & _); pose proof (contents_det _ _ Hc _ Hc') as Ed; assert (d2 = c2) by congruence; subst d2; apply M in Hr; discriminate
    |destruct K as (d & Hd & Hn); eexists _, d; split; [eassumption|]; cbn; auto])|(match goal with |- context [on_contents _ _ cs ?s] => pose proof (on_contents_keeps cs s (left_over_int c2 init Hi)) as K; destruct (on_contents parse_float left_over cs s) as [st'|] end; cbn [obind];
    [rewrite (K eq_refl); intros fs (es & d0 & d1 & d2 & ds & Hc' & _ & _ & Hr & _); pose proof (contents_det _ _ Hc _ Hc') as Ed; assert (d2 = c2) by congruence; subst d2; apply M in Hr; discriminate
    |destruct K as (d & Hd & Hn); eexists _, d; split; [eassumption|]; cbn; auto])|(match goal with |- context [on_contents _ _ cs ?s] => pose proof (on_contents_keeps cs s (left_over_int c2 init Hi)) as K; destruct (on_contents parse_float left_over cs s) as [st'|] end; cbn [obind];
    [rewrite (K eq_refl); intros fs (es & d0 & d1 & d2 & ds & Hc' & _ & _ & Hr & _); pose proof (contents_det _ _ Hc _ Hc') as Ed; assert (d2 = c2) by congruence; subst d2; apply M in Hr; discriminate
    |destruct K as (d & Hd & Hn); eexists _, d; split; [eassumption|]; cbn; auto])].
  assert (Hm : metrics_line parse_float c2 m) by now apply M.
  (* glyphs *)
  cbn [family_name ranges glyph_map glyphs have_family_name have_code_point_ranges have_fallback_glyph have_error orb].
  set (st3 := State (trim c0) rs m [] [] true true true false false).
  pose proof (metrics_int _ _ Hm) as Hi3. pose proof (on_contents_keeps cs st3 Hi3) as K.
  destruct (on_contents parse_float left_over cs st3) as [st'|] eqn:E3; cbn [obind].
  2: { destruct K as (d & Hd & Hn). eexists _, d. split; [eassumption|]. cbn. auto. }
  inversion HLc2 as [|? ? _ HLc3]; subst.
  destruct (glyph_contents cs st3 eq_refl Hi3 eq_refl ltac:(constructor) HLc3 st' E3) as [(es & Hes & Nd & ->)|(Her & Hno)].
  - cbn [have_error have_family_name have_font_metrics negb glyphs st3 app]. rewrite map_length. destruct es as [|e es].
    + cbn [length Nat.ltb Nat.leb]. apply Short. apply glyph_lines_length in Hes. destruct cs; [discriminate|discriminate].
    + change (length (e :: es) <? 1)%nat with false. exists (e :: es), c0, c1, c2, cs. cbn [fs_family_name fs_ranges fs_metrics fs_glyphs fs_glyph_map].
      split; [assumption|]. split; [assumption|]. split; [assumption|]. split; [assumption|]. split; [exact Hes|]. split; [discriminate|]. split; [|auto].
      cbn [glyph_map glyphs length app st3] in Nd. rewrite code_map_keys in Nd. apply (NoDup_wchar (concat (map snd (e :: es)))); [eapply glyph_lines_cps; exact Hes|exact Nd].
  - rewrite Her. intros fs (es & d0 & d1 & d2 & ds & Hc' & _ & _ & Hr & Hg & Ne & N & _). pose proof (contents_det _ _ Hc _ Hc') as Ed.
    assert (d2 = c2) by congruence. assert (ds = cs) by congruence. subst d2 ds. apply M in Hr. assert (m = fs_metrics fs) by congruence.
    apply (Hno es); cbn [mets st3 have_fallback_glyph negb glyph_map glyphs length app]; [congruence|]. rewrite code_map_keys. apply NoDup_wchar; [|assumption]. eapply glyph_lines_cps; exact Hg.
Qed.
End Load.
