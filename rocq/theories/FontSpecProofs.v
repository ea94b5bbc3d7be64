(* Lemmas about the model of the loading of the specification of the fallback font. *)
From Coq Require Import ZArith Bool List Arith Lia Sorted ZifyBool.
From Verif Require Import CInt IntModel IntSpec IntTextModel IntTextSpec IntTextProps PixelBoxModel WildFilterModel TextParseModel TextParseSpec TextParseProofs
  TextParseProps FontSpecModel FontSpecSpec ArrLib.
Import ListNotations.
Open Scope Z_scope.

(* ---- words ---- *)

Lemma parse_int_ok t w v : ity_ok t -> parse_int t w = Some v <-> numeral (if isigned t then OnlyMinus else NoSign) 10 w v /\ representable t v.
Proof.
  intros Ht. unfold parse_int.
  assert (D : documented_signs t SignAuto = if isigned t then OnlyMinus else NoSign) by (unfold documented_signs; now destruct (isigned t)).
  destruct (parse_exact Z (fun c => c) t 10 SignAuto w 0 Ht ltac:(lia)) as [(u & N & R & ->)|(N & ->)]; rewrite map_id, D in N.
  - split; [intros E; assert (u = v) by congruence; subst u; auto|].
    intros (N' & _). f_equal. eapply numeral_value_unique; eassumption.
  - split; [discriminate|]. intros (N' & R). destruct (N v N' R).
Qed.

Lemma parse_int_word w v : parse_int t_int w = Some v <-> int_word w v.
Proof. rewrite parse_int_ok by (cbn; lia). reflexivity. Qed.

Lemma no_sign_nonneg w v : numeral NoSign 10 w v -> 0 <= v.
Proof.
  intros (ds & _ & [(D & ->)|[(cs & _ & E & _)|(cs & _ & E & _)]]); [|discriminate|congruence].
  destruct D as (D & _). revert ds D. induction w as [|c w IH]; intros ds D; inversion D as [|? d ? ds' Hd Hds]; subst; cbn [positional]; [lia|].
  specialize (IH _ Hds). assert (0 <= d) by (unfold digit_char in Hd; lia).
  pose proof (Z.pow_nonneg 10 (Z.of_nat (length ds')) ltac:(lia)). nia.
Qed.

Lemma parse_code_point_ok w v : parse_code_point w = Some v <-> cp_word w v.
Proof.
  unfold parse_code_point, cp_word.
  assert (T : forall u, representable t_uint u -> (try_from_int u = Some v <-> u = v /\ v < 2 ^ 32 - 1)).
  { intros u R. unfold representable in R. cbn in R. unfold try_from_int.
    assert (W : wrap t_uint (wrap t_int u) = u).
    { pose proof (wrap_cong t_int u ltac:(cbn; lia)) as (k & K). apply (wrap_eq_of_cong t_uint _ u k); [cbn; lia|unfold in_range, imin, imax; cbn; lia|exact K]. }
    rewrite W, Z.eqb_refl. destruct (negb (u <? 0) && true && negb (u =? 2 ^ 32 - 1)) eqn:E; split; intros H; try discriminate.
    - assert (u = v) by congruence. lia.
    - f_equal; lia.
    - lia. }
  split.
  - intros H. destruct (parse_int t_uint w) as [u|] eqn:E; [|discriminate]. apply parse_int_ok in E; [|cbn; lia]. cbn in E.
    destruct E as (N & R). cbn [obind] in H. apply T in H; [|exact R]. destruct H as (<- & H). auto.
  - intros (N & L). pose proof (no_sign_nonneg _ _ N).
    assert (R : representable t_uint v) by (unfold representable; cbn; lia).
    assert (E : parse_int t_uint w = Some v) by (apply parse_int_ok; [cbn; lia|auto]).
    rewrite E. cbn [obind]. apply T; auto.
Qed.

Lemma digit_not_dash radix w ds : digit_string radix w ds -> ~ In 45 w.
Proof.
  intros (D & _) H. apply in_split in H as (a & b & ->). apply Forall2_app_inv_l in D as (x & y & _ & D & _).
  inversion D as [|? d ? ? Hd]; subst. unfold digit_char in Hd. lia.
Qed.

Lemma cp_word_no_dash w v : cp_word w v -> ~ In 45 w.
Proof.
  intros ((ds & _ & [(D & _)|[(cs & _ & E & _)|(cs & _ & E & _)]]) & _); [|discriminate|congruence]. eapply digit_not_dash; eassumption.
Qed.

Lemma split_dash_ok w : match split_dash w with Some (a, b) => w = a ++ 45 :: b /\ ~ In 45 a | None => ~ In 45 w end.
Proof.
  induction w as [|c w IH]; cbn; [auto|]. unfold dash. destruct (Z.eqb_spec c 45) as [->|N]; [cbn; auto|].
  destruct (split_dash w) as [[a b]|]; cbn.
  - destruct IH as (-> & IH). cbn. split; [reflexivity|]. intuition congruence.
  - intuition congruence.
Qed.

Lemma first_dash (a b u v : list Z) : a ++ 45 :: b = u ++ 45 :: v -> ~ In 45 a -> ~ In 45 u -> a = u /\ b = v.
Proof.
  revert u. induction a as [|x a IH]; intros [|y u] E A U; cbn in *.
  - split; congruence.
  - injection E as <- _. tauto.
  - injection E as -> _. tauto.
  - injection E as -> E. destruct (IH u E) as (-> & ->); tauto.
Qed.

Lemma parse_range_ok w r : parse_range w = Some r <-> range_word w r.
Proof.
  unfold parse_range, range_word. pose proof (split_dash_ok w) as S. destruct (split_dash w) as [[a b]|].
  - destruct S as (-> & Na). split.
    + intros H. right. destruct (parse_code_point a) as [f|] eqn:Ea; [|discriminate]. destruct (parse_code_point b) as [l|] eqn:Eb; [|discriminate].
      cbn [obind] in H. destruct (Z.leb_spec f l); [|discriminate]. assert (r = (f, l)) by congruence. subst r. cbn [fst snd].
      apply parse_code_point_ok in Ea, Eb. exists a, b. auto.
    + intros [(C & _)|(u & v & E & Cu & Cv & L)].
      * destruct (cp_word_no_dash _ _ C). rewrite in_app_iff. cbn; auto.
      * destruct (first_dash _ _ _ _ E Na (cp_word_no_dash _ _ Cu)) as (<- & <-). apply parse_code_point_ok in Cu, Cv. rewrite Cu, Cv. cbn [obind].
        destruct (Z.leb_spec (fst r) (snd r)); [|lia]. now destruct r.
  - split.
    + intros H. left. destruct (parse_code_point w) as [f|] eqn:Ew; [|discriminate]. cbn [obind] in H. assert (r = (f, f)) by congruence. subst r.
      apply parse_code_point_ok in Ew. auto.
    + intros [(C & E)|(u & v & -> & _)].
      * apply parse_code_point_ok in C. rewrite C. cbn [obind]. destruct r; cbn in *; congruence.
      * destruct S. rewrite in_app_iff. cbn; auto.
Qed.

Lemma bool_word_ok w b : (exists v, parse_int t_bool w = Some v /\ b = negb (v =? 0)) <-> bool_word w b.
Proof.
  unfold bool_word. split.
  - intros (v & E & ->). apply parse_int_ok in E; [|cbn; lia]. destruct E as (N & R). exists v. cbn in N. split; [exact N|].
    unfold representable in R. cbn in R. assert (v = 0 \/ v = 1) as [->| ->] by lia; [left|right]; split; reflexivity.
  - intros (v & N & H). exists v. split; [apply parse_int_ok; [cbn; lia|]; split; [exact N|unfold representable; cbn; lia]|].
    destruct H as [(-> & ->)|(-> & ->)]; reflexivity.
Qed.

(* ---- sequences ---- *)

Lemma ranges_seq_ok ws : forall st st', accepted_seq ranges_seq ws st st' <-> exists rs, st' = st ++ rs /\ Forall2 range_word (map fst ws) rs.
Proof.
  induction ws as [|[w p] ws IH]; intros st st'; cbn [map fst].
  - split; [intros H; inversion H; subst; exists []; rewrite app_nil_r; auto|]. intros (rs & -> & H). inversion H; subst. rewrite app_nil_r. constructor.
  - split.
    + intros H. inversion H as [|? ? ? ? st1 ? Hs Ha]; subst. cbn [s_add ranges_seq] in Hs. destruct (parse_range w) as [r|] eqn:Er; [|discriminate].
      cbn [obind] in Hs. assert (st1 = st ++ [r]) by congruence. subst st1. apply IH in Ha as (rs & -> & HF). exists (r :: rs). rewrite <- app_assoc.
      split; [reflexivity|]. constructor; [now apply parse_range_ok|assumption].
    + intros (rs & -> & HF). inversion HF as [|? r ? rs' Hr Hrs]; subst. econstructor; [cbn [s_add ranges_seq]; apply parse_range_ok in Hr; rewrite Hr; reflexivity|].
      apply IH. exists rs'. rewrite <- app_assoc. auto.
Qed.

Lemma code_points_seq_ok ws : forall g cps st', accepted_seq code_points_seq ws (g, cps) st' <-> exists l, st' = (g, cps ++ l) /\ Forall2 cp_word (map fst ws) l.
Proof.
  induction ws as [|[w p] ws IH]; intros g cps st'; cbn [map fst].
  - split; [intros H; inversion H; subst; exists []; rewrite app_nil_r; auto|]. intros (rs & -> & H). inversion H; subst. rewrite app_nil_r. constructor.
  - split.
    + intros H. inversion H as [|? ? ? ? st1 ? Hs Ha]; subst. cbn [s_add code_points_seq fst snd] in Hs. destruct (parse_code_point w) as [r|] eqn:Er; [|discriminate].
      cbn [obind] in Hs. assert (st1 = (g, cps ++ [r])) by congruence. subst st1. apply IH in Ha as (rs & -> & HF). exists (r :: rs). rewrite <- app_assoc.
      split; [reflexivity|]. constructor; [now apply parse_code_point_ok|assumption].
    + intros (rs & -> & HF). inversion HF as [|? r ? rs' Hr Hrs]; subst. econstructor; [cbn [s_add code_points_seq]; apply parse_code_point_ok in Hr; rewrite Hr; reflexivity|].
      cbn [fst snd]. apply IH. exists rs'. rewrite <- app_assoc. auto.
Qed.

(* ---- fields ---- *)

Lemma accepted_cons {St I} (f : field St I) fs ws st st2 : accepted (f :: fs) ws st st2 <->
  exists w p ws' st1, ws = (w, p) :: ws' /\ f_set f w st = Some st1 /\ accepted fs ws' st1 st2.
Proof.
  split; [intros H; inversion H; subst; eauto 10|]. intros (w & p & ws' & st1 & -> & A & B). econstructor; eauto.
Qed.

Lemma accepted_none {St I} ws (st st2 : St) : accepted (I := I) [] ws st st2 <-> ws = [] /\ st2 = st.
Proof. split; [intros H; inversion H; auto|]. intros (-> & ->). constructor. Qed.

Lemma int_field_ok {St} label (set : Z -> St -> St) w st st1 : f_set (int_field label set) w st = Some st1 <-> exists v, int_word w v /\ st1 = set v st.
Proof.
  cbn. split.
  - intros H. destruct (parse_int t_int w) as [v|] eqn:E; [|discriminate]. apply parse_int_word in E. cbn in H. exists v. split; [assumption|congruence].
  - intros (v & W & ->). apply parse_int_word in W. now rewrite W.
Qed.

Lemma glyph_fields_ok ws st g cps : accepted glyph_fields ws st (g, cps) <-> snd st = cps /\
  exists w0 w1 w2 w3 w4 w5 w6 w7 w8 w9, map fst ws = [w0; w1; w2; w3; w4; w5; w6; w7; w8; w9] /\
    int_word w0 (px (bpos (g_box g))) /\ int_word w1 (py (bpos (g_box g))) /\
    int_word w2 (width (bsize (g_box g))) /\ int_word w3 (height (bsize (g_box g))) /\
    int_word w4 (fst (horz_bearing g)) /\ int_word w5 (snd (horz_bearing g)) /\
    int_word w6 (fst (vert_bearing g)) /\ int_word w7 (snd (vert_bearing g)) /\
    int_word w8 (horz_advance g) /\ int_word w9 (vert_advance g).
Proof.
  unfold glyph_fields. split.
  - intros H.
    do 10 (apply accepted_cons in H as (? & ? & ? & ? & -> & Hs & H); apply int_field_ok in Hs as (? & ? & ->)).
    apply accepted_none in H as (-> & H). destruct st as [g0 cps0]. cbn in H. assert (Hg : g = fst (g, cps)) by reflexivity. rewrite H in Hg. cbn in Hg. subst g.
    split; [cbn; congruence|]. do 10 eexists. cbn. split; [reflexivity|]. do 9 (split; [assumption|]). assumption.
  - intros (<- & w0 & w1 & w2 & w3 & w4 & w5 & w6 & w7 & w8 & w9 & E & W0 & W1 & W2 & W3 & W4 & W5 & W6 & W7 & W8 & W9).
    do 10 (destruct ws as [|[? ?] ws]; [discriminate|]). destruct ws; [|discriminate]. cbn in E.
    injection E as -> -> -> -> -> -> -> -> -> ->.
    do 10 (apply accepted_cons; do 4 eexists; split; [reflexivity|]; split; [apply int_field_ok; eexists; split; [eassumption|reflexivity]|]).
    apply accepted_none. split; [reflexivity|]. destruct st as [g0 cps0]. cbn. destruct g as [[[? ?] [? ?]] [? ?] [? ?] ? ?]. reflexivity.
Qed.

Local Opaque parse_int.

Section Load.
Context {F : Type} (parse_float : list Z -> option F) (left_over : list Z -> metrics F -> metrics F).

Lemma bool_field_ok {St} label (set : bool -> St -> St) w st st1 : f_set (bool_field label set) w st = Some st1 <-> exists v, bool_word w v /\ st1 = set v st.
Proof.
  cbn. split.
  - intros H. destruct (parse_int t_bool w) as [v|] eqn:E; [|discriminate]. cbn in H. exists (negb (v =? 0)). split; [apply bool_word_ok; eauto|congruence].
  - intros (v & W & ->). apply bool_word_ok in W as (u & -> & ->). reflexivity.
Qed.

Lemma float_field_ok {St} label (set : F -> St -> St) w st st1 : f_set (float_field parse_float label set) w st = Some st1 <-> exists v, parse_float w = Some v /\ st1 = set v st.
Proof.
  cbn. split.
  - intros H. destruct (parse_float w) as [v|] eqn:E; [|discriminate]. cbn in H. exists v. split; congruence.
  - intros (v & -> & ->). reflexivity.
Qed.

Lemma metrics_fields_ok ws st m : accepted (metrics_fields parse_float) ws st m <->
  exists w0 w1 w2 w3 w4 w5 w6 w7 w8 w9 w10, map fst ws = [w0; w1; w2; w3; w4; w5; w6; w7; w8; w9; w10] /\
    int_word w0 (width (image_size m)) /\ int_word w1 (height (image_size m)) /\
    bool_word w2 (fst (fst (style m))) /\ bool_word w3 (snd (fst (style m))) /\ bool_word w4 (snd (style m)) /\
    parse_float w5 = Some (fst (render_size m)) /\ parse_float w6 = Some (snd (render_size m)) /\
    int_word w7 (fst (horz_baseline m)) /\ int_word w8 (snd (horz_baseline m)) /\
    int_word w9 (fst (vert_baseline m)) /\ int_word w10 (snd (vert_baseline m)).
Proof.
  unfold metrics_fields. split.
  - intros H. destruct st as [[w h] [[b i] mo] [rw rh] [a c] [d e]].
    apply accepted_cons in H as (? & ? & ? & s0 & -> & Hs & H); apply int_field_ok in Hs as (? & ? & E0); cbn in E0; subst s0.
    apply accepted_cons in H as (? & ? & ? & s1 & -> & Hs & H); apply int_field_ok in Hs as (? & ? & E1); cbn in E1; subst s1.
    apply accepted_cons in H as (? & ? & ? & s2 & -> & Hs & H); apply bool_field_ok in Hs as (? & ? & E2); cbn in E2; subst s2.
    apply accepted_cons in H as (? & ? & ? & s3 & -> & Hs & H); apply bool_field_ok in Hs as (? & ? & E3); cbn in E3; subst s3.
    apply accepted_cons in H as (? & ? & ? & s4 & -> & Hs & H); apply bool_field_ok in Hs as (? & ? & E4); cbn in E4; subst s4.
    apply accepted_cons in H as (? & ? & ? & s5 & -> & Hs & H); apply float_field_ok in Hs as (? & ? & E5); cbn in E5; subst s5.
    apply accepted_cons in H as (? & ? & ? & s6 & -> & Hs & H); apply float_field_ok in Hs as (? & ? & E6); cbn in E6; subst s6.
    apply accepted_cons in H as (? & ? & ? & s7 & -> & Hs & H); apply int_field_ok in Hs as (? & ? & E7); cbn in E7; subst s7.
    apply accepted_cons in H as (? & ? & ? & s8 & -> & Hs & H); apply int_field_ok in Hs as (? & ? & E8); cbn in E8; subst s8.
    apply accepted_cons in H as (? & ? & ? & s9 & -> & Hs & H); apply int_field_ok in Hs as (? & ? & E9); cbn in E9; subst s9.
    apply accepted_cons in H as (? & ? & ? & s10 & -> & Hs & H); apply int_field_ok in Hs as (? & ? & E10); cbn in E10; subst s10.
    apply accepted_none in H as (-> & ->).
    do 11 eexists. cbn. split; [reflexivity|]. do 10 (split; [assumption|]). assumption.
  - intros (w0 & w1 & w2 & w3 & w4 & w5 & w6 & w7 & w8 & w9 & w10 & E & W0 & W1 & W2 & W3 & W4 & W5 & W6 & W7 & W8 & W9 & W10).
    do 11 (destruct ws as [|[? ?] ws]; [discriminate|]). destruct ws; [|discriminate]. cbn in E.
    injection E as -> -> -> -> -> -> -> -> -> -> ->.
    destruct m as [[w h] [[b i] mo] [rw rh] [a c] [d e]], st as [[sw sh] [[? ?] ?] [? ?] [? ?] [? ?]].
    cbn [image_size style render_size horz_baseline vert_baseline fst snd width height] in *.
    apply accepted_cons; do 4 eexists; split; [reflexivity|]; split; [apply int_field_ok; eexists; split; [eassumption|cbn; reflexivity]|].
    apply accepted_cons; do 4 eexists; split; [reflexivity|]; split; [apply int_field_ok; eexists; split; [eassumption|cbn; reflexivity]|].
    apply accepted_cons; do 4 eexists; split; [reflexivity|]; split; [apply bool_field_ok; eexists; split; [eassumption|cbn; reflexivity]|].
    apply accepted_cons; do 4 eexists; split; [reflexivity|]; split; [apply bool_field_ok; eexists; split; [eassumption|cbn; reflexivity]|].
    apply accepted_cons; do 4 eexists; split; [reflexivity|]; split; [apply bool_field_ok; eexists; split; [eassumption|cbn; reflexivity]|].
    apply accepted_cons; do 4 eexists; split; [reflexivity|]; split; [apply float_field_ok; eexists; split; [eassumption|cbn; reflexivity]|].
    apply accepted_cons; do 4 eexists; split; [reflexivity|]; split; [apply float_field_ok; eexists; split; [eassumption|cbn; reflexivity]|].
    apply accepted_cons; do 4 eexists; split; [reflexivity|]; split; [apply int_field_ok; eexists; split; [eassumption|cbn; reflexivity]|].
    apply accepted_cons; do 4 eexists; split; [reflexivity|]; split; [apply int_field_ok; eexists; split; [eassumption|cbn; reflexivity]|].
    apply accepted_cons; do 4 eexists; split; [reflexivity|]; split; [apply int_field_ok; eexists; split; [eassumption|cbn; reflexivity]|].
    apply accepted_cons; do 4 eexists; split; [reflexivity|]; split; [apply int_field_ok; eexists; split; [eassumption|cbn; reflexivity]|].
    apply accepted_none. auto.
Qed.
End Load.
