(* Lemmas about the model of the loading of the specification of the fallback font: lines. *)
From Coq Require Import ZArith Bool List Arith Lia Sorted ZifyBool.
From Verif Require Import CInt IntModel PixelBoxModel WildFilterModel TextParseModel TextParseSpec TextParseProofs TextParseProps
  FontSpecModel FontSpecSpec FontSpecProofs ArrLib.
Import ListNotations.
Open Scope Z_scope.

(* ---- contents of lines ---- *)

Lemma before_hash_ok line : before_comment line (before_hash line).
Proof.
  induction line as [|c line IH]; cbn; [left; auto|]. unfold hash. destruct (Z.eqb_spec c 35) as [->|N].
  - right. exists line. auto.
  - destruct IH as [(-> & H)|(r & E & H)].
    + left. split; [reflexivity|]. cbn. intuition congruence.
    + right. exists r. split; [cbn; congruence|]. cbn. intuition congruence.
Qed.

Lemma before_comment_det line c : before_comment line c -> c = before_hash line.
Proof.
  intros [(-> & H)|(r & -> & H)].
  - induction line as [|x line IH]; cbn in *; [reflexivity|]. unfold hash. destruct (Z.eqb_spec x 35); [tauto|]. f_equal. tauto.
  - induction c as [|x c IH]; cbn in *; unfold hash.
    + reflexivity.
    + destruct (Z.eqb_spec x 35); [tauto|]. f_equal. tauto.
Qed.

Lemma trim_front_ok c : exists a, c = a ++ trim_front c /\ blank a /\ match trim_front c with [] => True | x :: _ => x <> 32 end.
Proof.
  unfold blank. induction c as [|x c IH]; cbn; [exists []; cbn; auto|]. unfold space. destruct (Z.eqb_spec x 32) as [->|N].
  - destruct IH as (a & E & B & H). exists (32 :: a). cbn. split; [now f_equal|]. auto.
  - exists []. cbn. auto.
Qed.

Lemma trim_front_app a n : blank a -> match n with [] => True | x :: _ => x <> 32 end -> trim_front (a ++ n) = n.
Proof.
  induction 1 as [|x a -> _ IH]; intros H; cbn; [|auto]. destruct n as [|x n]; [reflexivity|]. cbn. unfold space. now destruct (Z.eqb_spec x 32).
Qed.

Lemma blank_trim c : blank c <-> trim c = [].
Proof.
  unfold trim. split.
  - intros B. rewrite <- (app_nil_r c), trim_front_app by (cbn; auto). reflexivity.
  - intros E. destruct (trim_front_ok c) as (a & Ec & B & _). destruct (trim_front_ok (rev (trim_front c))) as (b & Eb & B' & _).
    apply (f_equal (@rev Z)) in E. rewrite rev_involutive in E. cbn in E. rewrite E, app_nil_r in Eb.
    rewrite Ec. apply Forall_app. split; [exact B|]. rewrite <- (rev_involutive (trim_front c)). apply Forall_rev. now rewrite Eb.
Qed.

Lemma trim_ok c : ~ blank c -> trimmed c (trim c).
Proof.
  intros NB. rewrite blank_trim in NB. unfold trim in *.
  destruct (trim_front_ok c) as (a & Ec & B & H). destruct (trim_front_ok (rev (trim_front c))) as (b & Eb & B' & H').
  set (t := trim_front c) in *. set (u := trim_front (rev t)) in *.
  assert (Et : t = rev u ++ rev b) by (rewrite <- (rev_involutive t), Eb, rev_app_distr; reflexivity).
  clearbody u. destruct u as [|y u']; [destruct NB; reflexivity|].
  destruct (rev (y :: u')) as [|x r] eqn:Er; [destruct NB; reflexivity|].
  exists a, (rev b), x, y. assert (Er' : rev (x :: r) = y :: u') by (rewrite <- Er; apply rev_involutive).
  rewrite Er', Ec, Et. cbn [hd_error].
  split; [reflexivity|]. split; [assumption|]. split; [now apply Forall_rev|]. split; [reflexivity|]. split; [|auto].
  rewrite Et in H. exact H.
Qed.

Lemma trimmed_det c n : trimmed c n -> n = trim c.
Proof.
  intros (a & b & x & y & -> & A & B & Hx & Nx & Hy & Ny). unfold trim.
  destruct n as [|x' n]; [discriminate|]. cbn in Hx. injection Hx as ->.
  rewrite trim_front_app by assumption. change ((x :: n) ++ b) with ((x :: n) ++ b). rewrite rev_app_distr.
  rewrite trim_front_app; [symmetry; apply rev_involutive|now apply Forall_rev|].
  destruct (rev (x :: n)) as [|y' r]; [discriminate|]. cbn in Hy. congruence.
Qed.

Lemma trimmed_not_blank c n : trimmed c n -> ~ blank c.
Proof.
  intros (a & b & x & y & -> & A & B & Hx & Nx & _) H. unfold blank in H. rewrite !Forall_app in H. destruct H as (_ & H & _).
  destruct n as [|x' n]; [discriminate|]. cbn in Hx. injection Hx as ->. inversion H; subst; congruence.
Qed.

(* ---- lines are processed as contents ---- *)

Section Load.
Context {F : Type} (parse_float : list Z -> option F) (left_over : list Z -> metrics F -> metrics F).
Notation state := (state F).
Implicit Types st : state.

Definition on_content (c : list Z) (st : state) : option state :=
  if have_font_metrics st then glyph_spec c st
  else if have_code_point_ranges st then Some (font_metrics_spec parse_float left_over c st)
  else if have_family_name st then code_point_ranges c st
  else
    Some (State (trim c) (ranges st) (mets st) (glyph_map st) (glyphs st) true (have_code_point_ranges st) (have_font_metrics st)
      (have_fallback_glyph st) (have_error st)).

Fixpoint on_contents (cs : list (list Z)) (st : state) : option state :=
  match cs with
  | [] => Some st
  | c :: cs => let? st := on_content c st in on_contents cs st
  end.

Lemma on_lines_contents lines cs : contents lines cs -> forall st, on_lines parse_float left_over lines st = on_contents cs st.
Proof.
  induction 1 as [|line c lines cs Hc B _ IH|line c lines cs Hc B _ IH]; intros st; cbn [on_lines on_contents]; [reflexivity| |].
  - unfold on_line. rewrite <- (before_comment_det _ _ Hc). apply blank_trim in B. rewrite B. cbn [obind]. apply IH.
  - unfold on_line. rewrite <- (before_comment_det _ _ Hc). rewrite blank_trim in B. unfold on_content.
    destruct (trim c) as [|x r] eqn:E; [congruence|]. 
    match goal with |- obind ?a _ = obind ?a _ => destruct a; cbn [obind]; [apply IH|reflexivity] end.
Qed.

Lemma contents_total lines : exists cs, contents lines cs.
Proof.
  induction lines as [|line lines (cs & IH)]; [exists []; constructor|]. pose proof (before_hash_ok line) as B.
  destruct (list_eq_dec Z.eq_dec (trim (before_hash line)) []) as [E|N].
  - exists cs. apply blank_trim in E. eapply contents_blank; eauto.
  - exists (before_hash line :: cs). rewrite <- blank_trim in N. eapply contents_line; eauto.
Qed.

Lemma contents_det lines cs : contents lines cs -> forall cs', contents lines cs' -> cs = cs'.
Proof.
  induction 1 as [|line c lines cs Hc B _ IH|line c lines cs Hc B _ IH]; intros cs' H; inversion H as [|? c' ? ? Hc' B' H'|? c' ? cs'' Hc' B' H']; subst.
  - reflexivity.
  - auto.
  - apply before_comment_det in Hc, Hc'. congruence.
  - apply before_comment_det in Hc, Hc'. congruence.
  - f_equal; [apply before_comment_det in Hc, Hc'; congruence|auto].
Qed.

Lemma contents_length lines cs n : contents lines cs -> Forall (fun l => Z.of_nat (length l) < n) lines -> Forall (fun l => Z.of_nat (length l) < n) cs.
Proof.
  induction 1 as [|line c lines cs Hc B _ IH|line c lines cs Hc B _ IH]; intros H; inversion H; subst; auto. constructor; [|auto].
  destruct Hc as [(-> & _)|(r & -> & _)]; [assumption|]. rewrite app_length in *. cbn in *. lia.
Qed.

(* ---- number of words of a line ---- *)

Lemma words_count d : forall fuel len cur, (length (rest_words fuel d len cur) <= length cur)%nat.
Proof.
  induction fuel as [|fuel IH]; intros len cur; cbn; [lia|]. destruct (next_word d cur) as [[w r]|] eqn:E; [|cbn; lia].
  pose proof (next_word_length _ _ _ _ E). specialize (IH len r). cbn. lia.
Qed.

Lemma line_words_count c words : line_words c words -> (length words <= length c)%nat.
Proof. intros (ws & H & ->). rewrite map_length, (words_of_rest _ _ _ H). apply words_count. Qed.

Lemma line_words_det c ws words : words_of 32 c ws -> line_words c words -> words = map fst ws.
Proof. intros H (ws' & H' & ->). now rewrite (words_of_rest _ _ _ H), (words_of_rest _ _ _ H'). Qed.

Lemma words_exist c : exists ws, words_of 32 c ws.
Proof. eexists. apply rest_words_of. Qed.

(* ---- the three kinds of lines ---- *)

Lemma map_fst_app {A B} (ws : list (A * B)) (a b : list A) : map fst ws = a ++ b -> exists x y, ws = x ++ y /\ map fst x = a /\ map fst y = b.
Proof.
  revert ws. induction a as [|e a IH]; cbn; intros ws E; [exists [], ws; auto|]. destruct ws as [|w ws]; [discriminate|]. cbn in E. injection E as <- E.
  destruct (IH ws E) as (x & y & -> & <- & <-). exists (w :: x), y. auto.
Qed.

Lemma metrics_parsed c m m' : parse_line space c (metrics_fields parse_float) m = Parsed m' <-> metrics_line parse_float c m'.
Proof.
  destruct (words_exist c) as (ws & H). destruct (parse_line_exact _ _ space c (metrics_fields parse_float) m) as (_ & P).
  rewrite (P ws _ H). split.
  - intros O. inversion O as [? A| | |]; subst. apply metrics_fields_ok in A as (w0 & w1 & w2 & w3 & w4 & w5 & w6 & w7 & w8 & w9 & w10 & E & A).
    exists w0, w1, w2, w3, w4, w5, w6, w7, w8, w9, w10. split; [exists ws; auto|exact A].
  - intros (w0 & w1 & w2 & w3 & w4 & w5 & w6 & w7 & w8 & w9 & w10 & L & A). constructor. apply metrics_fields_ok.
    exists w0, w1, w2, w3, w4, w5, w6, w7, w8, w9, w10. split; [symmetry; eapply line_words_det; eassumption|exact A].
Qed.

Lemma glyph_parsed c min max g cps : 0 <= min < 2 ^ 64 -> 0 <= max < 2 ^ 64 ->
  parse_line_seq space c glyph_fields code_points_seq min max (no_glyph, []) = Some (Parsed (g, cps)) <->
  glyph_line c g cps /\ min <= Z.of_nat (length cps) <= max.
Proof.
  intros Hmin Hmax. destruct (words_exist c) as (ws & H).
  destruct (parse_line_seq_exact _ _ space c glyph_fields code_points_seq min max (no_glyph, []) Hmin Hmax) as (_ & P).
  rewrite (P ws _ H). split.
  - intros O. inversion O as [a b [g1 l1] st2 Ews A B L| | | | |]; subst.
    apply code_points_seq_ok in B as (l & E & FB). apply glyph_fields_ok in A as (E0 & w0 & w1 & w2 & w3 & w4 & w5 & w6 & w7 & w8 & w9 & Ea & A).
    cbn in E0. subst l1. cbn [app] in E. assert (g1 = g) by congruence. assert (l = cps) by congruence. subst g1 l. split.
    + exists w0, w1, w2, w3, w4, w5, w6, w7, w8, w9, (map fst b).
      split; [exists (a ++ b); split; [assumption|now rewrite map_app, Ea]|].
      destruct A as (A0 & A1 & A2 & A3 & A4 & A5 & A6 & A7 & A8 & A9). do 10 (split; [assumption|]). assumption.
    + assert (Lc : length (map fst b) = length cps) by (clear - FB; induction FB; cbn; congruence). rewrite map_length in Lc. lia.
  - intros ((w0 & w1 & w2 & w3 & w4 & w5 & w6 & w7 & w8 & w9 & words & L & A0 & A1 & A2 & A3 & A4 & A5 & A6 & A7 & A8 & A9 & FB) & R).
    pose proof (line_words_det _ _ _ H L) as E.
    change (w0 :: w1 :: w2 :: w3 :: w4 :: w5 :: w6 :: w7 :: w8 :: w9 :: words) with ([w0; w1; w2; w3; w4; w5; w6; w7; w8; w9] ++ words) in E.
    symmetry in E. apply map_fst_app in E as (a & b & -> & Ea & <-).
    apply (seq_ok _ _ _ _ _ _ _ a b (g, []) (g, cps)); [reflexivity| | |].
    + apply glyph_fields_ok. split; [reflexivity|]. exists w0, w1, w2, w3, w4, w5, w6, w7, w8, w9. split; [assumption|].
      do 9 (split; [assumption|]). assumption.
    + apply code_points_seq_ok. exists cps. auto.
    + assert (Lc : length (map fst b) = length cps) by (clear - FB; induction FB; cbn; congruence). rewrite map_length in Lc. lia.
Qed.

Lemma ranges_parsed c rs : Z.of_nat (length c) < 2 ^ 64 ->
  parse_line_seq space c [] ranges_seq 1 (2 ^ 64 - 1) [] = Some (Parsed rs) <->
  exists words, line_words c words /\ Forall2 range_word words rs /\ rs <> [].
Proof.
  intros Lc. destruct (words_exist c) as (ws & H).
  destruct (parse_line_seq_exact _ _ space c [] ranges_seq 1 (2 ^ 64 - 1) [] ltac:(lia) ltac:(lia)) as (_ & P).
  rewrite (P ws _ H). split.
  - intros O. inversion O as [a b st1 st2 Ews A B L| | | | |]; subst.
    apply accepted_none in A as (-> & ->). apply ranges_seq_ok in B as (l & E & FB). cbn in E. subst l.
    exists (map fst b). split; [exists b; auto|]. split; [assumption|].
    intros ->. inversion FB as [E|]. destruct b; [cbn in L; lia|discriminate].
  - intros (words & L & FB & N). pose proof (line_words_count _ _ L) as C. pose proof (line_words_det _ _ _ H L) as ->.
    apply (seq_ok _ _ _ _ _ _ _ [] ws [] rs); [reflexivity|now apply accepted_none|apply ranges_seq_ok; exists rs; split; [reflexivity|assumption]|].
    rewrite map_length in C. destruct ws; [cbn in FB; inversion FB; congruence|]. cbn [length] in *. lia.
Qed.

Lemma check_ranges_ok rs : Forall (fun r => fst r <= snd r) rs -> forall p, check_ranges p rs = true <->
  StronglySorted (fun r s => snd r < fst s) rs /\ match p with None => True | Some p => Forall (fun r => p < fst r) rs end.
Proof.
  induction 1 as [|[f l] rs Hr Hrs IH]; intros p; cbn [check_ranges].
  - split; [intros _; split; [constructor|destruct p; auto]|reflexivity].
  - cbn in Hr. destruct p as [p|].
    + destruct (Z.ltb_spec p f).
      * rewrite IH. split.
        -- intros (A & B). split; [constructor; assumption|]. constructor; [assumption|]. rewrite Forall_forall in B |- *. intros x Hx. specialize (B x Hx). cbn in *. lia.
        -- intros (A & _). inversion A; subst. auto.
      * split; [discriminate|]. intros (_ & B). inversion B; subst. cbn in *. lia.
    + rewrite IH. split; [intros (A & B); split; [constructor; assumption|exact I]|]. intros (A & _). inversion A; subst. auto.
Qed.

Lemma range_word_le w r : range_word w r -> fst r <= snd r.
Proof. intros [(_ & ->)|(u & v & _ & _ & _ & H)]; lia. Qed.

Lemma ranges_checked c rs : Z.of_nat (length c) < 2 ^ 64 ->
  ranges_line c rs <-> parse_line_seq space c [] ranges_seq 1 (2 ^ 64 - 1) [] = Some (Parsed rs) /\ check_ranges None rs = true.
Proof.
  intros L. rewrite ranges_parsed by assumption. unfold ranges_line. split.
  - intros (words & A & B & N & S). split; [eauto|]. apply check_ranges_ok; [|auto].
    clear - B. induction B; constructor; [eapply range_word_le; eassumption|assumption].
  - intros ((words & A & B & N) & C). exists words. do 3 (split; [assumption|]). apply check_ranges_ok in C; [apply C|].
    clear - B. induction B; constructor; [eapply range_word_le; eassumption|assumption].
Qed.
End Load.
