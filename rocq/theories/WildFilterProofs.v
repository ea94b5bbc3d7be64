(* Lemmas about the model of wildcard filters. *)
From Coq Require Import ZArith Bool List Arith Lia.
From Verif Require Import StringMatcherModel StringMatcherSpec StringMatcherProps WildFilterModel WildFilterSpec ArrLib.
Import ListNotations.
Open Scope nat_scope.

Lemma skip_gap d g rest : gap d g -> skip_delims d (g ++ rest) = skip_delims d rest.
Proof. induction 1 as [|c g -> G IH]; [reflexivity|]. cbn. now rewrite Z.eqb_refl. Qed.

Lemma take_word_ok d w rest : Forall (fun c => c <> d) w -> match rest with [] => True | c :: _ => c = d end -> take_word d (w ++ rest) = (w, rest).
Proof.
  intros F H. induction F as [|c w Hc F IH]; cbn.
  - destruct rest as [|c rest]; [reflexivity|]. subst c. cbn. now rewrite Z.eqb_refl.
  - apply Z.eqb_neq in Hc. rewrite Hc, IH. reflexivity.
Qed.

Lemma next_word_ok d g w rest : gap d g -> is_word d w -> match rest with [] => True | c :: _ => c = d end ->
  next_word d (g ++ w ++ rest) = Some (w, rest).
Proof.
  intros G (N & F) H. unfold next_word. rewrite skip_gap by assumption. destruct w as [|c w]; [congruence|]. inversion F; subst.
  cbn [app skip_delims]. apply Z.eqb_neq in H2. rewrite H2. now rewrite take_word_ok.
Qed.

Lemma next_word_none d g : gap d g -> next_word d g = None.
Proof. intros G. unfold next_word. rewrite <- (app_nil_r g), skip_gap by assumption. reflexivity. Qed.

Lemma words_loop_ok d str words : worded d str words -> forall fuel, length str < fuel -> words_loop fuel d str = Some words.
Proof.
  induction 1 as [g G|g w g' G Hw G'|g w str words G Hw N H IH]; intros fuel Hf; (destruct fuel as [|fuel]; [lia|]); cbn [words_loop].
  - now rewrite next_word_none.
  - rewrite next_word_ok; [|assumption|assumption|destruct G'; auto]. rewrite !app_length in Hf. destruct fuel as [|fuel]; [destruct Hw as (Hw & _); destruct w; [congruence|cbn in Hf; lia]|].
    cbn [words_loop]. now rewrite next_word_none.
  - rewrite next_word_ok by auto. rewrite !app_length in Hf. cbn [length] in Hf.
    destruct fuel as [|fuel]; [lia|]. cbn [words_loop].
    assert (E : next_word d (d :: str) = next_word d str) by (unfold next_word; cbn [skip_delims]; now rewrite Z.eqb_refl).
    rewrite E. specialize (IH (S fuel) ltac:(lia)). cbn [words_loop] in IH. rewrite IH. reflexivity.
Qed.

Lemma worded_total d : forall n str, length str <= n -> exists words, worded d str words.
Proof.
  induction n as [|n IH]; intros str L.
  - destruct str; [|cbn in L; lia]. exists []. constructor. constructor.
  - assert (K1 : exists g r, str = g ++ r /\ gap d g /\ match r with [] => True | c :: _ => c <> d end).
    { clear. induction str as [|c str (g & r & -> & G & H)]; [exists [], []; repeat split; constructor|].
      destruct (Z.eq_dec c d) as [->|Ne]; [exists (d :: g), r; repeat split; [now constructor|assumption]|].
      exists [], (c :: g ++ r). repeat split; [constructor|assumption]. }
    destruct K1 as (g & r & -> & G & H). destruct r as [|c r]; [exists []; rewrite app_nil_r; now constructor|].
    assert (K2 : exists w r', r = w ++ r' /\ Forall (fun c => c <> d) w /\ match r' with [] => True | c :: _ => c = d end).
    { clear. induction r as [|c r (w & r' & -> & F & H)]; [exists [], []; repeat split; constructor|].
      destruct (Z.eq_dec c d) as [->|Ne]; [exists [], (d :: w ++ r'); repeat split; constructor|].
      exists (c :: w), r'. repeat split; [now constructor|assumption]. }
    destruct K2 as (w & r' & -> & F & H2). assert (Hw : is_word d (c :: w)) by (split; [discriminate|now constructor]).
    change (c :: w ++ r') with ((c :: w) ++ r') in *. destruct r' as [|c' s].
    + exists [c :: w]. constructor; [assumption|assumption|constructor].
    + subst c'. destruct (IH s) as (words & Hs). { rewrite !app_length in L. cbn [length] in L. lia. }
      destruct words as [|w2 words].
      * exists [c :: w]. constructor; [assumption|assumption|]. inversion Hs; subst. now constructor.
      * exists ((c :: w) :: w2 :: words). constructor; auto. discriminate.
Qed.

Lemma worded_words d str words : worded d str words -> Forall (is_word d) words.
Proof. induction 1; constructor; auto. Qed.

Lemma worded_in d str words : worded d str words -> forall w, In w words -> forall c, In c w -> In c str.
Proof.
  induction 1 as [g G|g w g' G Hw G'|g w str words G Hw N H IH]; intros w0 Hin c Hc; [destruct Hin| |].
  - destruct Hin as [<-|[]]. rewrite !in_app_iff. auto.
  - rewrite !in_app_iff. destruct Hin as [<-|Hin]; [auto|]. right. right. right. eauto.
Qed.

(* ---- matchers ---- *)

Section M.
Variables (kmin kmax : Z).
Hypothesis Hk : (kmin <= 42 <= kmax)%Z.

Definition pats (seg : list (list Z)) : list (list Z * Z) := map (fun p => (p, 0%Z)) seg.
Definition seg_ok (seg : list (list Z)) := Forall (chars_ok kmin kmax) seg.
Definition builds (b : builder) (seg : list (list Z)) := add_patterns star new_builder (pats seg) = Some b.

(* a matcher for the patterns, and no other *)
Definition decides (m : matcher) (seg : list (list Z)) : Prop :=
  forall name, chars_ok kmin kmax name -> exists r, match_string m name = Some r /\ match r with Some _ => some_match seg name | None => ~ some_match seg name end.

Lemma add_pattern_patterns b p i b' : add_pattern star b p i = Some b' -> b_patterns b' = b_patterns b ++ [i].
Proof.
  unfold add_pattern. destruct (extract_next_token star p) as [tok curr]. destruct tok.
  1,2: destruct (parse_concatenation star (S (length p)) _) as [[node_index q]|]; [|discriminate]; cbn [obind]; destruct (fst (snd q)); try discriminate;
    destruct (add_node _ _ _ _ _) as [[result n]|]; [|discriminate]; cbn [obind]; destruct (register_position _ _ _) as [term_pos n2];
    destruct (register_followpos_1 _ _ _) as [n3|]; [|discriminate]; cbn [obind]; now intros [= <-].
  destruct (register_position _ _ _) as [term_pos n2]. now intros [= <-].
Qed.

Lemma add_patterns_app ps : forall b qs, add_patterns star b (ps ++ qs) = obind (add_patterns star b ps) (fun b => add_patterns star b qs).
Proof.
  induction ps as [|[p i] ps IH]; intros b qs; [reflexivity|]. cbn. destruct (add_pattern star b p i); [apply IH|reflexivity].
Qed.

Lemma add_patterns_patterns ps : forall b b', add_patterns star b ps = Some b' -> b_patterns b' = b_patterns b ++ map snd ps.
Proof.
  induction ps as [|[p i] ps IH]; intros b b'; cbn; [intros [= <-]; now rewrite app_nil_r|].
  destruct (add_pattern star b p i) as [b1|] eqn:E; [|discriminate]. cbn [obind]. intros H. rewrite (IH _ _ H), (add_pattern_patterns _ _ _ _ E), <- app_assoc. reflexivity.
Qed.

Lemma builds_patterns b seg : builds b seg -> b_patterns b = map (fun _ => 0%Z) seg.
Proof. intros H. apply add_patterns_patterns in H. rewrite H. unfold pats. cbn. now rewrite map_map. Qed.

Lemma first_match_some name seg r : first_match star name (pats seg) r -> match r with Some _ => some_match seg name | None => ~ some_match seg name end.
Proof.
  intros H. remember (pats seg) as ps eqn:E. revert seg E. induction H as [|p i ps M|p i ps r M H IH]; intros seg E; destruct seg as [|q seg]; try discriminate.
  - intros (p & [] & _).
  - injection E as <- -> ->. exists p. split; [now left|assumption].
  - injection E as <- -> ->. specialize (IH seg eq_refl). destruct r as [x|].
    + destruct IH as (q & Hin & Hq). exists q. split; [now right|assumption].
    + intros (q & Hin & Hq). destruct Hin as [<-|Hin]; [now apply M|]. apply IH. now exists q.
Qed.

Lemma build_exact fuel b m : build kmin kmax fuel true b = Some (Built m) -> m_patterns m = b_patterns b.
Proof.
  unfold build. destruct (ensure_state [] [] (b_start b)) as [? [keys un]]. destruct (build_loop _ _ _ _ _ _ _ _ _) as [[[s t]|]|]; cbn; try discriminate.
  now intros [= <-].
Qed.

Lemma builds_matcher seg : seg_ok seg -> exists b m f0, builds b seg /\
  (forall fuel, f0 <= fuel -> build_matcher kmin kmax fuel b = Some m) /\ decides m seg /\ m_patterns m = map (fun _ => 0%Z) seg.
Proof.
  intros Ho. destruct (string_matcher_exact kmin kmax star (pats seg)) as (b & m & f0 & Eb & Hf & Hm).
  - lia.
  - unfold pats. apply Forall_map. cbn. exact Ho.
  - exists b, m, f0. split; [exact Eb|]. split; [|split].
    + intros fuel Hfu. unfold build_matcher. rewrite Hf by assumption. reflexivity.
    + intros name Hn. destruct (Hm name Hn) as (r & E & Hr). exists r. split; [assumption|]. now apply first_match_some.
    + rewrite (build_exact f0 b m) by (apply Hf; lia). now apply builds_patterns.
Qed.

Lemma some_match_star name : some_match [[star]] name.
Proof.
  exists [star]. split; [now left|]. replace name with (name ++ []) by apply app_nil_r. unfold star. constructor. constructor.
Qed.

(* what the include patterns stand for *)
Definition or_star (seg : list (list Z)) : list (list Z) := match seg with [] => [[star]] | _ => seg end.

Lemma or_star_match seg name : some_match (or_star seg) name <-> seg = [] \/ some_match seg name.
Proof.
  destruct seg; cbn.
  - split; [auto|]. intros _. apply some_match_star.
  - split; [auto|]. intros [H|H]; [discriminate|assumption].
Qed.

Lemma make_include_ok seg b : seg_ok seg -> builds b seg -> exists b' m f0,
  (forall fuel, f0 <= fuel -> make_include_matcher kmin kmax fuel b = Some (b', m)) /\ decides m (or_star seg) /\ m_patterns m <> [] /\ clear b' = new_builder.
Proof.
  intros Ho Hb. assert (Ho2 : seg_ok (or_star seg)).
  { destruct seg; [|assumption]. constructor; [|constructor]. constructor; [unfold star; lia|constructor]. }
  destruct (builds_matcher (or_star seg) Ho2) as (b' & m & f0 & Eb & Hf & Hd & Hp). exists b', m, f0. split; [|split; [assumption|split]].
  - intros fuel Hfu. unfold make_include_matcher. rewrite (builds_patterns _ _ Hb). destruct seg as [|p seg].
    + cbn [map]. unfold builds in Hb. cbn in Hb. injection Hb as <-. unfold builds in Eb. cbn [or_star pats map add_patterns] in Eb.
      destruct (add_pattern star new_builder [star] 0%Z) as [b1|]; [|discriminate]. cbn [obind] in *. injection Eb as ->. rewrite Hf by assumption. reflexivity.
    + cbn [map]. cbn [or_star] in Eb. unfold builds in *. assert (b' = b) by congruence. subst b'. cbn [obind]. rewrite Hf by assumption. reflexivity.
  - rewrite Hp. destruct seg; discriminate.
  - destruct (string_matcher_clear star (pats (or_star seg))) as (b2 & E2 & Ec). unfold builds in Eb. congruence.
Qed.

(* the words dealt with one at a time: the current patterns, and the include patterns if there has been a dash *)
Definition step (st : list (list Z) * option (list (list Z))) (w : list Z) :=
  if list_eq_dec Z.eq_dec w dash then ([], Some (fst st)) else (fst st ++ [w], snd st).

Definition inc_ok (inc : matcher) (i : option (list (list Z))) : Prop :=
  match i with
  | None => inc = no_matcher
  | Some s => decides inc (or_star s) /\ m_patterns inc <> []
  end.

Lemma on_words_ok words : forall seg i b inc, seg_ok words -> seg_ok seg -> builds b seg -> inc_ok inc i ->
  exists b' inc' f0, (forall fuel, f0 <= fuel -> on_words kmin kmax fuel (b, inc) words = Some (b', inc')) /\
    builds b' (fst (fold_left step words (seg, i))) /\ seg_ok (fst (fold_left step words (seg, i))) /\ inc_ok inc' (snd (fold_left step words (seg, i))).
Proof.
  induction words as [|w words IH]; intros seg i b inc Hw Hs Hb Hi.
  - exists b, inc, 0. cbn. auto.
  - inversion Hw; subst. cbn [fold_left on_words]. unfold on_word, step at 2 4 6. cbn [fst snd]. unfold dash. destruct (list_eq_dec Z.eq_dec w [45%Z]) as [->|Ne]; cbn [negb].
    + destruct (make_include_ok seg b Hs Hb) as (b1 & m & f1 & Hf & Hd & Hp & Hc).
      destruct (IH [] (Some seg) new_builder m H2 ltac:(constructor) eq_refl (conj Hd Hp)) as (b' & inc' & f2 & Hf2 & R).
      exists b', inc', (Nat.max f1 f2). split; [|exact R]. intros fuel Hfu. rewrite Hf by lia. cbn [obind]. rewrite Hc. apply Hf2. lia.
    + assert (Hs2 : seg_ok (seg ++ [w])) by (apply Forall_app; auto).
      destruct (builds_matcher (seg ++ [w]) Hs2) as (b1 & _ & _ & Eb & _).
      assert (Ea : add_pattern star b w 0%Z = Some b1).
      { unfold builds, pats in *. rewrite map_app, add_patterns_app, Hb in Eb. cbn in Eb. destruct (add_pattern star b w 0%Z); [exact Eb|discriminate]. }
      destruct (IH (seg ++ [w]) i b1 inc H2 Hs2 Eb Hi) as (b' & inc' & f0 & Hf & R). exists b', inc', f0. split; [|exact R].
      intros fuel Hfu. rewrite Ea. cbn [obind]. now apply Hf.
Qed.

(* the patterns that are used in the end *)
Definition used (words : list (list Z)) : list (list Z) * list (list Z) :=
  match fold_left step words ([], None) with
  | (seg, None) => (seg, [])
  | (seg, Some inc) => (inc, seg)
  end.

Lemma match_none name : match_string no_matcher name = Some None.
Proof. reflexivity. Qed.

Lemma make_filter_ok filter words : worded 32 filter words -> chars_ok kmin kmax filter ->
  exists f f0, (forall fuel, f0 <= fuel -> make_filter kmin kmax fuel filter = Some f) /\
  forall name, chars_ok kmin kmax name -> exists b, include f name = Some b /\ (b = true <-> filter_includes (fst (used words)) (snd (used words)) name).
Proof.
  intros W Hc. assert (Hw : seg_ok words).
  { apply Forall_forall. intros w Hin. apply Forall_forall. intros c Hin2. unfold chars_ok in Hc. rewrite Forall_forall in Hc. apply Hc. eapply worded_in; eassumption. }
  destruct (on_words_ok words [] None new_builder no_matcher Hw ltac:(constructor) eq_refl eq_refl) as (b & inc & f0 & Hf & Hb & Hs & Hi).
  assert (Ew : for_each_word filter = Some words) by (apply words_loop_ok; [assumption|lia]).
  unfold used. destruct (fold_left step words ([], None)) as [seg [s|]] eqn:Est; cbn [fst snd] in *.
  - destruct Hi as (Hd & Hp). destruct (builds_matcher seg Hs) as (b2 & exc & f1 & Eb & Hf1 & He & _).
    assert (b2 = b) by (unfold builds in *; congruence). subst b2. exists (inc, exc), (Nat.max f0 f1). split.
    + intros fuel Hfu. unfold make_filter. rewrite Ew. cbn [obind]. rewrite Hf by lia. cbn [obind]. destruct (m_patterns inc); [congruence|].
      rewrite Hf1 by lia. reflexivity.
    + intros name Hn. unfold include. cbn [fst snd]. destruct (Hd name Hn) as (r & -> & Hr). cbn [obind].
      pose proof (or_star_match s name) as Ho. unfold filter_includes. destruct r as [x|].
      * destruct (He name Hn) as (r & -> & Hr2). cbn [obind]. destruct r; eexists; (split; [reflexivity|]); intuition discriminate.
      * eexists. split; [reflexivity|]. intuition discriminate.
  - cbn in Hi. subst inc. destruct (make_include_ok seg b Hs Hb) as (b1 & m & f1 & Hf1 & Hd & _ & _). exists (m, no_matcher), (Nat.max f0 f1). split.
    + intros fuel Hfu. unfold make_filter. rewrite Ew. cbn [obind]. rewrite Hf by lia. cbn [obind m_patterns no_matcher]. rewrite Hf1 by lia. reflexivity.
    + intros name Hn. unfold include. cbn [fst snd]. destruct (Hd name Hn) as (r & -> & Hr). cbn [obind].
      pose proof (or_star_match seg name) as Ho. rewrite ?match_none. cbn [obind]. unfold filter_includes. assert (~ some_match [] name) by (intros (p & [] & _)).
      destruct r as [x|]; eexists; (split; [reflexivity|]); intuition discriminate.
Qed.

Lemma fold_no_dash words : forall seg i, ~ In dash words -> fold_left step words (seg, i) = (seg ++ words, i).
Proof.
  induction words as [|w words IH]; intros seg i N; cbn [fold_left]; [now rewrite app_nil_r|].
  unfold step at 2. destruct (list_eq_dec Z.eq_dec w dash) as [->|Ne]; [exfalso; apply N; now left|]. cbn [fst snd].
  rewrite IH by (intros H; apply N; now right). now rewrite <- app_assoc.
Qed.
End M.
