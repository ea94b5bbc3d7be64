(* C221: changes of text attributes *)
From Coq Require Import Arith Bool String Ascii List Lia.
From Verif Require Import TermModel TermSpec.
Import ListNotations.
Local Open Scope string_scope.

Lemma app_assoc_s : forall a b c : string, (a ++ b) ++ c = a ++ (b ++ c).
Proof. induction a as [|x a IH]; intros b c; cbn; [reflexivity|]. rewrite IH. reflexivity. Qed.

Lemma len_app : forall a b, String.length (a ++ b) = (String.length a + String.length b)%nat.
Proof. induction a as [|x a IH]; intros b; cbn; [reflexivity|]. rewrite IH. reflexivity. Qed.

(* an argument and its number *)
Definition arg_is (arg : string) (n : nat) : Prop := forall rest s, params (arg ++ rest) 0 s = params rest n s.

(* what has been added so far takes the terminal from s to s' *)
Definition denotes (st : string * bool) (s s' : style) : Prop :=
  exists body, fst st = intro ++ body /\
  if snd st then (forall rest, params (body ++ ";" ++ rest) 0 s = params rest 0 s') /\ params (body ++ "m") 0 s = Some s'
  else body = "" /\ s = s'.

Lemma denotes_add : forall st s s1 s2 arg n, denotes st s s1 -> arg_is arg n -> sgr n s1 = Some s2 ->
  denotes (add_arg arg st) s s2 /\ snd (add_arg arg st) = true.
Proof.
  intros [text nf] s s1 s2 arg n (body & E & D) A S. cbn [fst snd] in *. split; [|reflexivity].
  unfold denotes. cbn [add_arg fst snd]. destruct nf.
  - destruct D as (D1 & D2). exists (body ++ ";" ++ arg). rewrite E, !app_assoc_s. split; [reflexivity|]. split.
    + intros rest. rewrite !app_assoc_s, D1, A. cbn. rewrite S. reflexivity.
    + rewrite D1, A. cbn. exact S.
  - destruct D as (-> & ->). exists arg. rewrite E. split; [reflexivity|]. split.
    + intros rest. rewrite A. cbn. rewrite S. reflexivity.
    + rewrite A. cbn. exact S.
Qed.

Lemma denotes_end : forall st s s', denotes st s s' -> snd st = true -> terminal (fst st ++ "m") s = Some s'.
Proof.
  intros st s s' (body & E & D) T. rewrite T in D. rewrite E. exact (proj2 D).
Qed.

(* each conditional addition *)
Lemma denotes_if : forall (cond : bool) st s s1 s2 arg n, denotes st s s1 -> arg_is arg n ->
  (cond = true -> sgr n s1 = Some s2) -> (cond = false -> s1 = s2) ->
  denotes (add_if cond arg st) s s2 /\ snd (add_if cond arg st) = cond || snd st.
Proof.
  intros [|] st s s1 s2 arg n D A T F; cbn [add_if orb].
  - exact (denotes_add st s s1 s2 arg n D A (T eq_refl)).
  - rewrite <- (F eq_refl). auto.
Qed.

Lemma weight_ok : forall to, exists n, arg_is (weight_arg to) n /\
  forall w u b r c g, sgr n (Style w u b r c g) = Some (Style (a_weight to) u b r c g).
Proof. intros to. unfold weight_arg. destruct (a_weight to); [exists 22|exists 1|exists 2]; split; intros; try intros ? ?; reflexivity. Qed.
Lemma underline_ok : forall to, exists n, arg_is (underline_arg to) n /\
  forall w u b r c g, sgr n (Style w u b r c g) = Some (Style w (a_underline to) b r c g).
Proof. intros to. unfold underline_arg. destruct (a_underline to); [exists 4|exists 24]; split; intros; try intros ? ?; reflexivity. Qed.
Lemma blink_ok : forall to, exists n, arg_is (blink_arg to) n /\
  forall w u b r c g, sgr n (Style w u b r c g) = Some (Style w u (a_blink to) r c g).
Proof. intros to. unfold blink_arg. destruct (a_blink to); [exists 5|exists 25]; split; intros; try intros ? ?; reflexivity. Qed.
Lemma reverse_ok : forall to, exists n, arg_is (reverse_arg to) n /\
  forall w u b r c g, sgr n (Style w u b r c g) = Some (Style w u b (a_reverse to) c g).
Proof. intros to. unfold reverse_arg. destruct (a_reverse to); [exists 7|exists 27]; split; intros; try intros ? ?; reflexivity. Qed.
Lemma color_ok : forall to, exists n, arg_is (color_arg to) n /\
  forall w u b r c g, sgr n (Style w u b r c g) = Some (Style w u b r (s_color (style_of to)) g).
Proof.
  intros to. cbn [style_of s_color]. unfold color_arg. destruct (a_has_color to).
  - exists (30 + color_index (a_color to))%nat. destruct (a_color to); split; intros; try intros ? ?; reflexivity.
  - exists 39. split; intros; try intros ? ?; reflexivity.
Qed.
Lemma background_ok : forall to, exists n, arg_is (background_color_arg to) n /\
  forall w u b r c g, sgr n (Style w u b r c g) = Some (Style w u b r c (s_background (style_of to))).
Proof.
  intros to. cbn [style_of s_background]. unfold background_color_arg. destruct (a_has_background_color to).
  - exists (40 + color_index (a_background_color to))%nat. destruct (a_background_color to); split; intros; try intros ? ?; reflexivity.
  - exists 49. split; intros; try intros ? ?; reflexivity.
Qed.

Lemma weight_eqb_eq : forall a b, weight_eqb a b = true -> a = b.
Proof. intros [] []; cbn; congruence. Qed.
Lemma color_eqb_eq : forall a b, color_eqb a b = true -> a = b.
Proof. intros [] []; cbn; congruence. Qed.

(* the six conditional additions, whatever the conditions are *)
Lemma six : forall c1 c2 c3 c4 c5 c6 to st s w u b r c g, denotes st s (Style w u b r c g) ->
  (c1 = false -> w = a_weight to) -> (c2 = false -> u = a_underline to) -> (c3 = false -> b = a_blink to) ->
  (c4 = false -> r = a_reverse to) -> (c5 = false -> c = s_color (style_of to)) ->
  (c6 = false -> g = s_background (style_of to)) ->
  let st6 := add_if c6 (background_color_arg to) (add_if c5 (color_arg to) (add_if c4 (reverse_arg to)
    (add_if c3 (blink_arg to) (add_if c2 (underline_arg to) (add_if c1 (weight_arg to) st))))) in
  denotes st6 s (style_of to) /\ snd st6 = c6 || (c5 || (c4 || (c3 || (c2 || (c1 || snd st))))).
Proof.
  intros c1 c2 c3 c4 c5 c6 to st s w u b r c g D0 F1 F2 F3 F4 F5 F6.
  destruct (weight_ok to) as (n1 & A1 & S1), (underline_ok to) as (n2 & A2 & S2), (blink_ok to) as (n3 & A3 & S3),
    (reverse_ok to) as (n4 & A4 & S4), (color_ok to) as (n5 & A5 & S5), (background_ok to) as (n6 & A6 & S6).
  destruct (denotes_if c1 st s _ _ _ n1 D0 A1 (fun _ => S1 w u b r c g)) as (D1 & N1).
  { intros H. rewrite (F1 H). reflexivity. }
  destruct (denotes_if c2 _ s _ _ _ n2 D1 A2 (fun _ => S2 _ u b r c g)) as (D2 & N2).
  { intros H. rewrite (F2 H). reflexivity. }
  destruct (denotes_if c3 _ s _ _ _ n3 D2 A3 (fun _ => S3 _ _ b r c g)) as (D3 & N3).
  { intros H. rewrite (F3 H). reflexivity. }
  destruct (denotes_if c4 _ s _ _ _ n4 D3 A4 (fun _ => S4 _ _ _ r c g)) as (D4 & N4).
  { intros H. rewrite (F4 H). reflexivity. }
  destruct (denotes_if c5 _ s _ _ _ n5 D4 A5 (fun _ => S5 _ _ _ _ c g)) as (D5 & N5).
  { intros H. rewrite (F5 H). reflexivity. }
  destruct (denotes_if c6 _ s _ _ _ n6 D5 A6 (fun _ => S6 _ _ _ _ _ g)) as (D6 & N6).
  { intros H. rewrite (F6 H). reflexivity. }
  cbv zeta. split; [exact D6|]. rewrite N6, N5, N4, N3, N2, N1. reflexivity.
Qed.

(* C221: a terminal with the first style has the second one when it has received the text *)
Theorem term_change : forall from to, terminal (change from to) (style_of from) = Some (style_of to).
Proof.
  intros from to. unfold change. destruct (attrs_eqb to from) eqn:E.
  - unfold attrs_eqb in E. rewrite !andb_true_iff, !eqb_true_iff in E.
    destruct E as (((((((E1 & E2) & E3) & E4) & E5) & E6) & E7) & E8).
    apply weight_eqb_eq in E1. apply color_eqb_eq in E6, E8. cbn [terminal]. unfold style_of.
    rewrite E1, E2, E3, E4, E5, E6, E7, E8. reflexivity.
  - cbv zeta. match goal with |- context [if Nat.leb ?x ?y then _ else _] => destruct (Nat.leb x y) end.
    + match goal with |- terminal (fst (add_if ?c6 _ (add_if ?c5 _ (add_if ?c4 _ (add_if ?c3 _ (add_if ?c2 _ (add_if ?c1 _ ?st)))))) ++ _) ?s = _ =>
        destruct (six c1 c2 c3 c4 c5 c6 to st s (a_weight from) (a_underline from) (a_blink from) (a_reverse from)
          (s_color (style_of from)) (s_background (style_of from))) as (D & N) end.
      * exists "". split; [reflexivity|]. split; reflexivity.
      * intros H. apply negb_false_iff, weight_eqb_eq in H. congruence.
      * intros H. apply negb_false_iff, eqb_prop in H. congruence.
      * intros H. apply negb_false_iff, eqb_prop in H. congruence.
      * intros H. apply negb_false_iff, eqb_prop in H. congruence.
      * intros H. apply orb_false_iff in H. destruct H as (H1 & H2). apply negb_false_iff in H1, H2.
        apply eqb_prop in H1. apply color_eqb_eq in H2. cbn [style_of s_color]. rewrite H1, H2. reflexivity.
      * intros H. apply orb_false_iff in H. destruct H as (H1 & H2). apply negb_false_iff in H1, H2.
        apply eqb_prop in H1. apply color_eqb_eq in H2. cbn [style_of s_background]. rewrite H1, H2. reflexivity.
      * apply (denotes_end _ _ _ D). rewrite N. unfold attrs_eqb in E. cbn [snd].
        destruct (weight_eqb (a_weight to) (a_weight from)), (Bool.eqb (a_underline to) (a_underline from)),
          (Bool.eqb (a_blink to) (a_blink from)), (Bool.eqb (a_reverse to) (a_reverse from)),
          (Bool.eqb (a_has_color to) (a_has_color from)), (color_eqb (a_color to) (a_color from)),
          (Bool.eqb (a_has_background_color to) (a_has_background_color from)),
          (color_eqb (a_background_color to) (a_background_color from)); try reflexivity; discriminate E.
    + assert (D0 : denotes (add_arg "" (intro, false)) (style_of from) default_style).
      { apply (denotes_add _ _ (style_of from) _ "" 0); [|intros ? ?; reflexivity|reflexivity].
        exists "". split; [reflexivity|]. split; reflexivity. }
      match goal with |- terminal (fst (add_if ?c6 _ (add_if ?c5 _ (add_if ?c4 _ (add_if ?c3 _ (add_if ?c2 _ (add_if ?c1 _ ?st)))))) ++ _) ?s = _ =>
        destruct (six c1 c2 c3 c4 c5 c6 to st s w_normal false false false None None D0) as (D & N) end; try congruence.
      * intros H. apply negb_false_iff, weight_eqb_eq in H. congruence.
      * intros H. cbn [style_of s_color]. rewrite H. reflexivity.
      * intros H. cbn [style_of s_background]. rewrite H. reflexivity.
      * apply (denotes_end _ _ _ D). rewrite N. cbn [add_arg snd]. rewrite !orb_true_r. reflexivity.
Qed.

(* the buffer has room *)
Theorem term_buffer : forall from to, (String.length (change from to) <= min_change_buffer_size)%nat.
Proof.
  intros from to. unfold change. destruct (attrs_eqb to from); [cbn; lia|]. cbv zeta.
  assert (L : (String.length (weight_arg to) <= 2 /\ String.length (underline_arg to) <= 2 /\ String.length (blink_arg to) <= 2 /\
    String.length (reverse_arg to) <= 2 /\ String.length (color_arg to) <= 2 /\ String.length (background_color_arg to) <= 2)%nat).
  { unfold weight_arg, underline_arg, blink_arg, reverse_arg, color_arg, background_color_arg. repeat split.
    - destruct (a_weight to); cbn; lia.
    - destruct (a_underline to); cbn; lia.
    - destruct (a_blink to); cbn; lia.
    - destruct (a_reverse to); cbn; lia.
    - destruct (a_has_color to), (a_color to); cbn; lia.
    - destruct (a_has_background_color to), (a_background_color to); cbn; lia. }
  destruct L as (L1 & L2 & L3 & L4 & L5 & L6).
  assert (A : forall c arg st k, (String.length arg <= 2 -> String.length (fst st) <= k -> String.length (fst (add_if c arg st)) <= k + 3)%nat).
  { intros c arg [t nf] k Ha Hk. destruct c; cbn [add_if add_arg fst] in *; [|lia]. rewrite len_app. destruct nf; [rewrite len_app; cbn [String.length]|]; lia. }
  assert (S : forall c1 c2 c3 c4 c5 c6 st, (String.length (fst st) <= 2 ->
    String.length (fst (add_if c6 (background_color_arg to) (add_if c5 (color_arg to) (add_if c4 (reverse_arg to)
      (add_if c3 (blink_arg to) (add_if c2 (underline_arg to) (add_if c1 (weight_arg to) st))))))) <= 20)%nat).
  { intros c1 c2 c3 c4 c5 c6 st H. pose proof (A c1 _ _ _ L1 H) as H1. pose proof (A c2 _ _ _ L2 H1) as H2. pose proof (A c3 _ _ _ L3 H2) as H3.
    pose proof (A c4 _ _ _ L4 H3) as H4. pose proof (A c5 _ _ _ L5 H4) as H5. exact (A c6 _ _ _ L6 H5). }
  rewrite len_app. change (String.length "m") with 1. unfold min_change_buffer_size.
  match goal with |- context [if Nat.leb ?x ?y then _ else _] => destruct (Nat.leb x y) end;
    (eapply Nat.le_trans; [apply Nat.add_le_mono_r, S; cbn; lia|lia]).
Qed.

(* attributes that can be obtained by way of the functions that set them *)
Definition made (a : attrs) : Prop := exists l, a = fold_left (fun a s => set_attr s a) l default_attrs.

(* nothing is sent when there is nothing to change *)
Theorem term_no_change : forall from to, made from -> made to -> (change from to = "" <-> style_of from = style_of to).
Proof.
  assert (G : forall a, made a -> (a_has_color a = false -> a_color a = black) /\
    (a_has_background_color a = false -> a_background_color a = black)).
  { intros a (l & ->). assert (K : forall l a, (a_has_color a = false -> a_color a = black) /\
      (a_has_background_color a = false -> a_background_color a = black) ->
      let b := fold_left (fun a s => set_attr s a) l a in
      (b.(a_has_color) = false -> a_color b = black) /\ (a_has_background_color b = false -> a_background_color b = black)).
    { clear l. induction l as [|s l IH]; intros a C; [exact C|]. cbn [fold_left]. apply IH.
      destruct a, s; cbn in *; intuition discriminate. }
    apply K. split; reflexivity. }
  intros from to Mf Mt. destruct (G _ Mf) as (Cf & Bf), (G _ Mt) as (Ct & Bt). split.
  - intros E. pose proof (term_change from to) as T. rewrite E in T. cbn [terminal] in T. injection T as T. unfold style_of. congruence.
  - intros E. assert (Q : attrs_eqb to from = true); [|unfold change; rewrite Q; reflexivity].
    assert (X : to = from).
    { destruct from as [w u b r h c hb cb], to as [w' u' b' r' h' c' hb' cb']. cbn in *. unfold style_of in E. cbn in E.
      injection E as -> -> -> -> E1 E2.
      destruct h, h'; try discriminate E1; [injection E1 as ->|rewrite (Cf eq_refl), (Ct eq_refl)];
        (destruct hb, hb'; try discriminate E2; [injection E2 as ->|rewrite (Bf eq_refl), (Bt eq_refl)]); reflexivity. }
    rewrite X. unfold attrs_eqb, color_eqb. rewrite !eqb_reflx, !Nat.eqb_refl. destruct (a_weight from); reflexivity.
Qed.

Example term_change_case : let a := set_attr (SetColor red) (set_attr (SetWeight w_bold) default_attrs) in
  let b := set_attr (SetUnderline true) (set_attr (SetColor cyan) default_attrs) in
  made a /\ made b /\ change a b = intro ++ ";4;36m" /\ change default_attrs a = intro ++ "1;31m" /\
  change a default_attrs = intro ++ "m" /\ change b b = "" /\ terminal (change a b) (style_of a) = Some (style_of b).
Proof.
  cbv zeta. split; [exists [SetWeight w_bold; SetColor red]; reflexivity|].
  split; [exists [SetColor cyan; SetUnderline true]; reflexivity|]. repeat split.
Qed.

Print Assumptions term_change.
Print Assumptions term_buffer.
Print Assumptions term_no_change.
