(* Lemmas about the model of parsing of lines of text into fields. *)
From Coq Require Import ZArith Bool List Arith Lia Sorted ZifyBool.
From Verif Require Import WildFilterModel TextParseModel TextParseSpec ArrLib.
Import ListNotations.
Open Scope nat_scope.

(* all the words of what is left of the string, with their positions *)
Fixpoint rest_words (fuel : nat) (delim : Z) (len : nat) (cur : list Z) : list (list Z * nat) :=
  match fuel with
  | O => []
  | S fuel =>
    match next_word delim cur with
    | None => []
    | Some (w, cur') => (w, len - length cur' - length w) :: rest_words fuel delim len cur'
    end
  end.

Lemma skip_delims_split d cur : exists g, cur = g ++ skip_delims d cur /\ Forall (fun c => c = d) g /\
  match skip_delims d cur with [] => True | c :: _ => c <> d end.
Proof.
  induction cur as [|c rest IH]; cbn; [exists []; cbn; auto|].
  destruct (Z.eqb_spec c d) as [->|N].
  - destruct IH as (g & E & G & H). exists (d :: g). cbn. split; [now f_equal|]. split; [now constructor|assumption].
  - exists []. cbn. auto.
Qed.

Lemma take_word_split d cur : forall w r, take_word d cur = (w, r) -> cur = w ++ r /\ ~ In d w /\ match r with [] => True | c :: _ => c = d end.
Proof.
  induction cur as [|c rest IH]; cbn; intros w r E; [injection E as <- <-; cbn; tauto|].
  destruct (Z.eqb_spec c d) as [->|N]; cbn in E; [injection E as <- <-; cbn; tauto|].
  destruct (take_word d rest) as [w' r'] eqn:T. injection E as <- <-. destruct (IH _ _ eq_refl) as (-> & H & K). cbn.
  split; [reflexivity|]. split; [intuition congruence|assumption].
Qed.

Lemma next_word_some d cur w r : next_word d cur = Some (w, r) -> exists g, cur = g ++ w ++ r /\ Forall (fun c => c = d) g /\
  w <> [] /\ ~ In d w /\ match r with [] => True | c :: _ => c = d end.
Proof.
  unfold next_word. destruct (skip_delims_split d cur) as (g & E & G & H). destruct (skip_delims d cur) as [|c rest]; [discriminate|].
  destruct (take_word d rest) as [w' r'] eqn:T. intros K. injection K as <- <-. destruct (take_word_split _ _ _ _ T) as (-> & N & F).
  exists g. split; [exact E|]. split; [assumption|]. split; [discriminate|]. split; [cbn; intuition congruence|assumption].
Qed.

Lemma next_word_none d cur : next_word d cur = None -> Forall (fun c => c = d) cur.
Proof.
  unfold next_word. destruct (skip_delims_split d cur) as (g & E & G & H). destruct (skip_delims d cur) as [|c rest].
  - intros _. rewrite app_nil_r in E. now subst.
  - now destruct (take_word d rest).
Qed.

(* two decompositions: a word cannot begin within gap or earlier word *)
Lemma split_mid {A} (a b c e : list A) : a ++ b = c ++ e -> length a <= length c -> exists m, c = a ++ m /\ b = m ++ e.
Proof.
  revert c. induction a as [|x a IH]; intros [|y c] E L; cbn in *; try lia; [exists []|exists (y :: c)|]; cbn; auto.
  injection E as -> E. destruct (IH c E ltac:(lia)) as (m & -> & ->). now exists m.
Qed.

Lemma word_at_delims d str p w : Forall (fun c => c = d) str -> ~ word_at d str w p.
Proof.
  intros F (a & b & -> & _ & N & D & _). destruct w as [|c w]; [congruence|]. apply D. left.
  rewrite Forall_forall in F. apply (F c). rewrite !in_app_iff. cbn. auto.
Qed.

Lemma word_at_step d cur g w r : cur = g ++ w ++ r -> Forall (fun c => c = d) g -> w <> [] -> ~ In d w ->
  match r with [] => True | c :: _ => c = d end -> forall v p,
  word_at d cur v p <-> (v = w /\ p = length g) \/ (length g + length w <= p /\ word_at d r v (p - length g - length w)).
Proof.
  intros -> G N D R v p. split.
  - intros (a & b & E & L & Nv & Dv & A & B).
    assert (Hga : length g <= length a).
    { destruct (le_lt_dec (length g) (length a)) as [|Hlt]; [assumption|exfalso].
      destruct (split_mid a (v ++ b) g (w ++ r) (eq_sym E) ltac:(lia)) as (m & Eg & Em).
      destruct m as [|x m]; [rewrite app_nil_r in Eg; subst; lia|].
      destruct v as [|y v]; [congruence|]. cbn in Em. injection Em as -> _.
      apply Dv. left. rewrite Forall_forall in G. apply G. rewrite Eg, in_app_iff. cbn; auto. }
    destruct (split_mid g (w ++ r) a (v ++ b) E Hga) as (m & Ea & Em).
    destruct (le_lt_dec (length w) (length m)) as [Hm|Hm].
    + destruct (split_mid w r m (v ++ b) Em Hm) as (m' & Em' & Er).
      right. split; [subst; rewrite !app_length; lia|].
      exists m', b. split; [assumption|]. split; [subst; rewrite !app_length; lia|]. do 2 (split; [assumption|]). split; [|assumption].
      destruct m' as [|x m']; [now left|right].
      destruct (exists_last (l := x :: m') ltac:(discriminate)) as (q & z & Ez). rewrite Ez. exists q. f_equal. f_equal.
      destruct A as [A|(a' & Ea')]; [rewrite A, Em' in Ea; destruct g, w; discriminate|].
      rewrite Ea, Em', Ez, !app_assoc in Ea'. apply app_inj_tail in Ea'. apply Ea'.
    + (* a ends within w *)
      assert (m = []).
      { destruct m as [|x m]; [reflexivity|exfalso].
        destruct (split_mid (x :: m) (v ++ b) w r (eq_sym Em) ltac:(lia)) as (q & Ew & _).
        destruct A as [A|(a' & Ea')]; [rewrite A in Ea; destruct g; discriminate|].
        destruct (exists_last (l := x :: m) ltac:(discriminate)) as (q' & z & Ez). rewrite Ez in *.
        rewrite Ea, app_assoc in Ea'. apply app_inj_tail in Ea'. destruct Ea' as [_ ->].
        apply D. rewrite Ew, !in_app_iff. cbn. auto. }
      subst m. cbn in Em. rewrite app_nil_r in Ea. subst a. left. split; [|auto].
      destruct (le_lt_dec (length w) (length v)) as [Hv|Hv].
      * destruct (split_mid w r v b Em Hv) as (q & -> & Er). destruct q as [|x q]; [apply app_nil_r|exfalso].
        cbn in Er. rewrite Er in R. subst x. apply Dv. rewrite in_app_iff. cbn. auto.
      * destruct (split_mid v b w r (eq_sym Em) ltac:(lia)) as (q & -> & Eb). destruct q as [|x q]; [rewrite app_nil_r in Hv; lia|exfalso].
        destruct B as [->|(b' & ->)]; [discriminate|]. injection Eb as <- _. apply D. rewrite in_app_iff. cbn. auto.
  - intros [(-> & ->)|(L & a & b & E & La & Nv & Dv & A & B)].
    + exists g, r. split; [reflexivity|]. do 3 (split; [auto|]). split.
      * destruct g as [|x g]; [now left|right]. destruct (exists_last (l := x :: g) ltac:(discriminate)) as (q & z & Ez).
        rewrite Ez in *. exists q. f_equal. f_equal. rewrite Forall_forall in G. apply G. rewrite in_app_iff. cbn. auto.
      * destruct r as [|c r]; [now left|right]. subst c. now exists r.
    + exists (g ++ w ++ a), b. split; [rewrite E, !app_assoc; reflexivity|]. split; [rewrite !app_length; lia|].
      do 2 (split; [assumption|]). split; [|assumption]. right.
      destruct A as [->|(a' & ->)].
      * cbn in E. destruct v as [|y v]; [congruence|]. rewrite E in R. cbn in R. subst y. exfalso. apply Dv. now left.
      * exists (g ++ w ++ a'). now rewrite !app_assoc.
Qed.

Lemma rest_words_at d : forall fuel len cur, length cur < fuel -> length cur <= len -> forall w p,
  In (w, p) (rest_words fuel d len cur) <-> len - length cur <= p /\ word_at d cur w (p - (len - length cur)).
Proof.
  induction fuel as [|fuel IH]; intros len cur Hf Hl w p; [lia|]. cbn.
  destruct (next_word d cur) as [[v r]|] eqn:E.
  - destruct (next_word_some _ _ _ _ E) as (g & Ec & G & N & D & R).
    assert (Lc : length cur = length g + length v + length r) by (rewrite Ec, !app_length; lia).
    assert (length v > 0) by (destruct v; [congruence|cbn; lia]).
    rewrite (word_at_step d cur g v r Ec G N D R). cbn [In]. rewrite IH by lia. split.
    + intros [Q|(L & Q)].
      * assert (v = w) by congruence. assert (p = len - length r - length v) by congruence. split; [lia|]. left. split; [congruence|lia].
      * split; [lia|]. right. split; [lia|]. replace (p - (len - length cur) - length g - length v) with (p - (len - length r)) by lia. exact Q.
    + intros (L & [(-> & Hp)|(L' & Q)]).
      * left. f_equal. lia.
      * right. split; [lia|]. replace (p - (len - length r)) with (p - (len - length cur) - length g - length v) by lia. exact Q.
  - split; [easy|]. intros (_ & Q). destruct (word_at_delims d cur _ w (next_word_none _ _ E) Q).
Qed.

Lemma rest_words_sorted d : forall fuel len cur, length cur < fuel -> length cur <= len ->
  StronglySorted (fun a b => snd a < snd b) (rest_words fuel d len cur).
Proof.
  induction fuel as [|fuel IH]; intros len cur Hf Hl; [lia|]. cbn.
  destruct (next_word d cur) as [[v r]|] eqn:E; [|constructor].
  destruct (next_word_some _ _ _ _ E) as (g & Ec & G & N & D & R).
  assert (Lc : length cur = length g + length v + length r) by (rewrite Ec, !app_length; lia).
  assert (length v > 0) by (destruct v; [congruence|cbn; lia]).
  constructor; [apply IH; lia|]. apply Forall_forall. intros [w p] Hin. apply rest_words_at in Hin; [|lia|lia]. cbn. lia.
Qed.

Lemma sorted_unique (l1 l2 : list (list Z * nat)) : StronglySorted (fun a b => snd a < snd b) l1 -> StronglySorted (fun a b => snd a < snd b) l2 ->
  (forall x, In x l1 <-> In x l2) -> l1 = l2.
Proof.
  revert l2. induction l1 as [|x l1 IH]; intros l2 S1 S2 H.
  - destruct l2 as [|y l2]; [reflexivity|]. destruct (proj2 (H y)). now left.
  - destruct l2 as [|y l2]; [destruct (proj1 (H x)); now left|].
    inversion S1 as [|? ? S1' F1]; subst. inversion S2 as [|? ? S2' F2]; subst. rewrite Forall_forall in F1, F2.
    assert (x = y).
    { destruct (proj1 (H x) (or_introl eq_refl)) as [->|Hx]; [reflexivity|].
      destruct (proj2 (H y) (or_introl eq_refl)) as [->|Hy]; [reflexivity|].
      apply F2 in Hx. apply F1 in Hy. lia. }
    subst y. f_equal. apply IH; [assumption|assumption|]. intros z. specialize (H z). cbn in H. split; intros Hz.
    + destruct (proj1 H (or_intror Hz)) as [->|]; [apply F1 in Hz; lia|assumption].
    + destruct (proj2 H (or_intror Hz)) as [->|]; [apply F2 in Hz; lia|assumption].
Qed.

Lemma words_of_rest d str ws : words_of d str ws -> ws = rest_words (S (length str)) d (length str) str.
Proof.
  intros (H & Hs). apply sorted_unique; [assumption|apply rest_words_sorted; lia|]. intros [w p]. rewrite H, rest_words_at by lia.
  rewrite Nat.sub_diag, Nat.sub_0_r. intuition lia.
Qed.

Lemma rest_words_of d str : words_of d str (rest_words (S (length str)) d (length str) str).
Proof.
  split; [|apply rest_words_sorted; lia]. intros w p. rewrite rest_words_at by lia. rewrite Nat.sub_diag, Nat.sub_0_r. intuition lia.
Qed.

Lemma rest_words_fuel d len : forall f1 f2 cur, length cur < f1 -> length cur < f2 -> rest_words f1 d len cur = rest_words f2 d len cur.
Proof.
  induction f1 as [|f1 IH]; intros [|f2] cur H1 H2; try lia. cbn. destruct (next_word d cur) as [[v r]|] eqn:E; [|reflexivity].
  destruct (next_word_some _ _ _ _ E) as (g & Ec & G & N & D & R).
  assert (Lc : length cur = length g + length v + length r) by (rewrite Ec, !app_length; lia).
  assert (length v > 0) by (destruct v; [congruence|cbn; lia]). f_equal. apply IH; lia.
Qed.

Definition rw (d : Z) (len : nat) (cur : list Z) := rest_words (S (length cur)) d len cur.

Lemma rw_eq d len cur : rw d len cur =
  match next_word d cur with None => [] | Some (w, r) => (w, len - length r - length w) :: rw d len r end.
Proof.
  unfold rw. cbn [rest_words]. destruct (next_word d cur) as [[v r]|] eqn:E; [|reflexivity]. f_equal.
  destruct (next_word_some _ _ _ _ E) as (g & Ec & G & N & D & R).
  assert (Lc : length cur = length g + length v + length r) by (rewrite Ec, !app_length; lia).
  assert (length v > 0) by (destruct v; [congruence|cbn; lia]). apply (rest_words_fuel d len (length cur) (S (length r)) r); lia.
Qed.

Lemma next_word_length d cur w r : next_word d cur = Some (w, r) -> length r < length cur.
Proof.
  intros E. destruct (next_word_some _ _ _ _ E) as (g & -> & G & N & D & R). rewrite !app_length. destruct w; [congruence|cbn; lia].
Qed.

Section Parse.
Context {St I : Type}.
Implicit Types (fields : list (field St I)) (st : St).

Lemma accepted_app f1 f2 w1 w2 st st1 st2 : accepted (I := I) f1 w1 st st1 -> accepted f2 w2 st1 st2 -> accepted (f1 ++ f2) (w1 ++ w2) st st2.
Proof. induction 1; cbn; [auto|]. intros. econstructor; eauto. Qed.

(* the iteration over the fields *)
Lemma parse_fields_ok d str : forall fields cur st,
  match parse_fields d str cur fields st with
  | inr (st1, cur1) => exists a, rw d (length str) cur = a ++ rw d (length str) cur1 /\ accepted fields a st st1
  | inl (BadValue w i p) => exists a r f1 f f2 st1, rw d (length str) cur = a ++ (w, p) :: r /\ fields = f1 ++ f :: f2 /\ i = f_ident f /\
      accepted f1 a st st1 /\ f_set f w st1 = None
  | inl (MissingValue i p) => exists f1 f f2 st1, p = length str /\ i = f_ident f /\ fields = f1 ++ f :: f2 /\ accepted f1 (rw d (length str) cur) st st1
  | inl _ => False
  end.
Proof.
  induction fields as [|f fields IH]; intros cur st; cbn [parse_fields].
  - exists []. split; [reflexivity|constructor].
  - rewrite (rw_eq d (length str) cur). destruct (next_word d cur) as [[w r]|] eqn:E.
    + destruct (f_set f w st) as [st1|] eqn:Ef.
      * specialize (IH r st1). unfold word_pos. destruct (parse_fields d str r fields st1) as [[]|[st2 cur2]].
        -- assumption.
        -- destruct IH as (a & q & f1 & g & f2 & st2 & -> & -> & -> & A & B). eexists (_ :: a), q, (f :: f1), g, f2, st2.
           cbn. split; [reflexivity|]. do 2 (split; [reflexivity|]). split; [econstructor; eauto|assumption].
        -- destruct IH as (f1 & g & f2 & st2 & -> & -> & -> & A). exists (f :: f1), g, f2, st2. cbn. do 3 (split; [reflexivity|]). econstructor; eauto.
        -- assumption.
        -- destruct IH as (a & -> & A). eexists (_ :: a). cbn. split; [reflexivity|]. econstructor; eauto.
      * exists [], (rw d (length str) r), [], f, fields, st. cbn. split; [reflexivity|]. do 2 (split; [reflexivity|]). split; [constructor|assumption].
    + exists [], f, fields, st. cbn. do 3 (split; [reflexivity|]). constructor.
Qed.

Lemma parse_line_ok d str fields st : line_outcome (rw d (length str) str) (length str) fields st (parse_line d str fields st).
Proof.
  unfold parse_line. pose proof (parse_fields_ok d str fields str st) as H. destruct (parse_fields d str str fields st) as [[]|[st1 cur1]].
  - destruct H.
  - destruct H as (a & r & f1 & f & f2 & st1 & E & Ef & -> & A & B). eapply line_bad; eauto.
  - destruct H as (f1 & f & f2 & st1 & -> & -> & E & A). eapply line_missing; eauto.
  - destruct H.
  - destruct H as (a & E & A). rewrite E. rewrite rw_eq. destruct (next_word d cur1) as [[w r]|].
    + eapply line_many; [reflexivity|eassumption].
    + apply line_ok. now rewrite app_nil_r.
Qed.

(* the loop over the rest *)
Lemma parse_seq_ok d str (seq : field_seq St I) min max : (0 <= max < 2 ^ 64)%Z -> forall fuel cur i st, length cur < fuel -> (0 <= i <= max)%Z ->
  match parse_seq fuel d str cur seq min max i st with
  | Some (Parsed st2) => accepted_seq seq (rw d (length str) cur) st st2 /\ (min <= i + Z.of_nat (length (rw d (length str) cur)) <= max)%Z
  | Some (BadValue w id p) => exists b r st2, rw d (length str) cur = b ++ (w, p) :: r /\ accepted_seq seq b st st2 /\
      (i + Z.of_nat (length b) < max)%Z /\ s_add seq w st2 = None /\ id = s_ident seq
  | Some (TooManyValues w p) => exists b r st2, rw d (length str) cur = b ++ (w, p) :: r /\ accepted_seq seq b st st2 /\ (i + Z.of_nat (length b) = max)%Z
  | Some (MissingValue id p) => exists st2, accepted_seq seq (rw d (length str) cur) st st2 /\ id = s_ident seq /\ p = length str /\
      (i + Z.of_nat (length (rw d (length str) cur)) <= max)%Z /\ (i + Z.of_nat (length (rw d (length str) cur)) < min)%Z
  | None => False
  end.
Proof.
  intros Hmax. induction fuel as [|fuel IH]; intros cur i st Hf Hi; [lia|]. cbn [parse_seq]. rewrite (rw_eq d (length str) cur).
  destruct (next_word d cur) as [[w r]|] eqn:E.
  - pose proof (next_word_length _ _ _ _ E) as Hr. destruct (Z.ltb_spec i max) as [Hlt|Hge].
    + destruct (s_add seq w st) as [st1|] eqn:Es.
      * rewrite Z.mod_small by lia. specialize (IH r (i + 1)%Z st1 ltac:(lia) ltac:(lia)).
        destruct (parse_seq fuel d str r seq min max (i + 1) st1) as [[]|].
        -- destruct IH as (A & B). split; [econstructor; eauto|]. cbn [length]. lia.
        -- destruct IH as (b & q & st2 & -> & A & B & C & D). eexists (_ :: b), q, st2. split; [reflexivity|]. split; [econstructor; eauto|]. cbn [length]. split; [lia|auto].
        -- destruct IH as (st2 & A & B & C & D & F). exists st2. split; [econstructor; eauto|]. cbn [length]. do 2 (split; [assumption|]). lia.
        -- destruct IH as (b & q & st2 & -> & A & B). eexists (_ :: b), q, st2. split; [reflexivity|]. split; [econstructor; eauto|]. cbn [length]. lia.
        -- assumption.
      * exists [], (rw d (length str) r), st. split; [reflexivity|]. split; [constructor|]. cbn [length]. split; [lia|auto].
    + exists [], (rw d (length str) r), st. split; [reflexivity|]. split; [constructor|]. cbn [length]. lia.
  - cbn [length]. destruct (Z.leb_spec min i).
    + split; [constructor|lia].
    + exists st. split; [constructor|]. do 2 (split; [reflexivity|]). lia.
Qed.

Lemma parse_line_seq_ok d str fields (seq : field_seq St I) min max st : (0 <= max < 2 ^ 64)%Z ->
  exists r, parse_line_seq d str fields seq min max st = Some r /\ seq_outcome (rw d (length str) str) (length str) fields seq min max st r.
Proof.
  intros Hmax. unfold parse_line_seq. pose proof (parse_fields_ok d str fields str st) as H. destruct (parse_fields d str str fields st) as [[]|[st1 cur1]].
  - destruct H.
  - eexists. split; [reflexivity|]. destruct H as (a & r & f1 & f & f2 & st1 & E & Ef & -> & A & B). eapply seq_bad_field; eauto.
  - eexists. split; [reflexivity|]. destruct H as (f1 & f & f2 & st1 & -> & -> & E & A). eapply seq_missing_field; eauto.
  - destruct H.
  - destruct H as (a & E & A).
    pose proof (parse_seq_ok d str seq min max Hmax (S (length cur1)) cur1 0%Z st1 ltac:(lia) ltac:(lia)) as H.
    destruct (parse_seq (S (length cur1)) d str cur1 seq min max 0 st1) as [[]|].
    + destruct H as (B & C). eexists. split; [reflexivity|]. eapply seq_ok; eauto; lia.
    + destruct H as (b & q & st2 & F & B & C & D & ->). eexists. split; [reflexivity|]. rewrite F in E. eapply seq_bad; eauto; lia.
    + destruct H as (st2 & B & -> & -> & C & D). eexists. split; [reflexivity|]. eapply seq_missing; eauto; lia.
    + destruct H as (b & q & st2 & F & B & C). eexists. split; [reflexivity|]. rewrite F in E. eapply seq_many; eauto; lia.
    + destruct H.
Qed.

(* the other way around: an outcome determines what is returned *)
Lemma parse_fields_accepted d str f1 ws st st1 : accepted (I := I) f1 ws st st1 -> forall cur rest f2, rw d (length str) cur = ws ++ rest ->
  exists cur1, rw d (length str) cur1 = rest /\ parse_fields d str cur (f1 ++ f2) st = parse_fields d str cur1 f2 st1.
Proof.
  induction 1 as [st|f fs w p ws st st1 st2 Hf _ IH]; intros cur rest f2 E; [exists cur; auto|].
  rewrite rw_eq in E. cbn [app parse_fields]. destruct (next_word d cur) as [[v r]|]; [|discriminate]. cbn [app] in E.
  assert (E1 : v = w) by congruence. assert (E2 : rw d (length str) r = ws ++ rest) by congruence. subst v. rewrite Hf. eauto.
Qed.

Lemma rw_nil d len cur : rw d len cur = [] -> next_word d cur = None.
Proof. rewrite rw_eq. now destruct (next_word d cur) as [[w r]|]. Qed.

Lemma rw_cons d len cur w p rest : rw d len cur = (w, p) :: rest -> exists r, next_word d cur = Some (w, r) /\ p = len - length r - length w /\ rw d len r = rest.
Proof. rewrite rw_eq. destruct (next_word d cur) as [[v r]|]; [|discriminate]. intros E. exists r. repeat split; congruence. Qed.

Lemma line_outcome_det d str fields st r : line_outcome (rw d (length str) str) (length str) fields st r -> parse_line d str fields st = r.
Proof.
  intros H. unfold parse_line.
  destruct H as [st' A|a w p q f1 f f2 st1 E Ef A B|f1 f f2 st1 Ef A|a w p q st1 E A].
  - destruct (parse_fields_accepted _ _ _ _ _ _ A str [] [] ltac:(now rewrite app_nil_r)) as (c & Ec & E1). rewrite app_nil_r in E1. rewrite E1. cbn.
    now rewrite (rw_nil _ _ _ Ec).
  - subst fields. destruct (parse_fields_accepted _ _ _ _ _ _ A str _ (f :: f2) E) as (c & Ec & E1). rewrite E1. cbn.
    destruct (rw_cons _ _ _ _ _ _ Ec) as (c' & N & -> & _). rewrite N, B. reflexivity.
  - subst fields. destruct (parse_fields_accepted _ _ _ _ _ _ A str [] (f :: f2) ltac:(now rewrite app_nil_r)) as (c & Ec & E1). rewrite E1. cbn.
    now rewrite (rw_nil _ _ _ Ec).
  - destruct (parse_fields_accepted _ _ _ _ _ _ A str _ [] E) as (c & Ec & E1). rewrite app_nil_r in E1. rewrite E1. cbn.
    destruct (rw_cons _ _ _ _ _ _ Ec) as (c' & N & -> & _). rewrite N. reflexivity.
Qed.

Lemma parse_seq_accepted d str (seq : field_seq St I) min max : (0 <= max < 2 ^ 64)%Z -> forall ws st st1, accepted_seq seq ws st st1 ->
  forall cur rest fuel i, rw d (length str) cur = ws ++ rest -> length cur < fuel -> (0 <= i)%Z -> (i + Z.of_nat (length ws) <= max)%Z ->
  exists cur1 fuel1, rw d (length str) cur1 = rest /\ length cur1 < fuel1 /\
    parse_seq fuel d str cur seq min max i st = parse_seq fuel1 d str cur1 seq min max (i + Z.of_nat (length ws))%Z st1.
Proof.
  intros Hmax ws st st1 A. induction A as [st|w p ws st st1 st2 Hs _ IH]; intros cur rest fuel i E Hf Hi Hm.
  - exists cur, fuel. cbn [length]. rewrite Z.add_0_r. auto.
  - cbn [length app] in *. destruct (rw_cons _ _ _ _ _ _ E) as (r & N & _ & E2). pose proof (next_word_length _ _ _ _ N).
    destruct fuel as [|fuel]; [lia|]. cbn [parse_seq]. rewrite N. destruct (Z.ltb_spec i max); [|lia]. rewrite Hs, Z.mod_small by lia.
    destruct (IH r rest fuel (i + 1)%Z E2 ltac:(lia) ltac:(lia) ltac:(lia)) as (c & f & Ec & Hc & Q). exists c, f. split; [assumption|]. split; [assumption|].
    rewrite Q. f_equal. lia.
Qed.

Lemma seq_outcome_det d str fields (seq : field_seq St I) min max st r : (0 <= max < 2 ^ 64)%Z ->
  seq_outcome (rw d (length str) str) (length str) fields seq min max st r -> parse_line_seq d str fields seq min max st = Some r.
Proof.
  intros Hmax H. unfold parse_line_seq.
  destruct H as [a b st1 st2 E A B C|a w p q f1 f f2 st1 E Ef A B|f1 f f2 st1 Ef A|a b w p q st1 st2 E A B C D|a b w p q st1 st2 E A B C|a b st1 st2 E A B C D].
  - destruct (parse_fields_accepted _ _ _ _ _ _ A str _ [] E) as (c & Ec & E1). rewrite app_nil_r in E1. rewrite E1. cbn [parse_fields].
    rewrite <- (app_nil_r b) in Ec.
    destruct (parse_seq_accepted d str seq min max Hmax _ _ _ B c [] (S (length c)) 0%Z Ec ltac:(lia) ltac:(lia) ltac:(lia)) as (c1 & g & Ec1 & Hg & Q).
    rewrite Q. destruct g as [|g]; [lia|]. cbn [parse_seq]. rewrite (rw_nil _ _ _ Ec1). destruct (Z.leb_spec min (0 + Z.of_nat (length b))); [reflexivity|lia].
  - subst fields. destruct (parse_fields_accepted _ _ _ _ _ _ A str _ (f :: f2) E) as (c & Ec & E1). rewrite E1. cbn [parse_fields].
    destruct (rw_cons _ _ _ _ _ _ Ec) as (c' & N & -> & _). rewrite N, B. reflexivity.
  - subst fields. destruct (parse_fields_accepted _ _ _ _ _ _ A str [] (f :: f2) ltac:(now rewrite app_nil_r)) as (c & Ec & E1). rewrite E1. cbn [parse_fields].
    now rewrite (rw_nil _ _ _ Ec).
  - destruct (parse_fields_accepted _ _ _ _ _ _ A str _ [] E) as (c & Ec & E1). rewrite app_nil_r in E1. rewrite E1. cbn [parse_fields].
    destruct (parse_seq_accepted d str seq min max Hmax _ _ _ B c _ (S (length c)) 0%Z Ec ltac:(lia) ltac:(lia) ltac:(lia)) as (c1 & g & Ec1 & Hg & Q).
    rewrite Q. destruct g as [|g]; [lia|]. cbn [parse_seq]. destruct (rw_cons _ _ _ _ _ _ Ec1) as (c' & N & -> & _). rewrite N.
    destruct (Z.ltb_spec (0 + Z.of_nat (length b)) max); [|lia]. rewrite D. reflexivity.
  - destruct (parse_fields_accepted _ _ _ _ _ _ A str _ [] E) as (c & Ec & E1). rewrite app_nil_r in E1. rewrite E1. cbn [parse_fields].
    destruct (parse_seq_accepted d str seq min max Hmax _ _ _ B c _ (S (length c)) 0%Z Ec ltac:(lia) ltac:(lia) ltac:(lia)) as (c1 & g & Ec1 & Hg & Q).
    rewrite Q. destruct g as [|g]; [lia|]. cbn [parse_seq]. destruct (rw_cons _ _ _ _ _ _ Ec1) as (c' & N & -> & _). rewrite N.
    destruct (Z.ltb_spec (0 + Z.of_nat (length b)) max); [lia|]. reflexivity.
  - destruct (parse_fields_accepted _ _ _ _ _ _ A str _ [] E) as (c & Ec & E1). rewrite app_nil_r in E1. rewrite E1. cbn [parse_fields].
    rewrite <- (app_nil_r b) in Ec.
    destruct (parse_seq_accepted d str seq min max Hmax _ _ _ B c [] (S (length c)) 0%Z Ec ltac:(lia) ltac:(lia) ltac:(lia)) as (c1 & g & Ec1 & Hg & Q).
    rewrite Q. destruct g as [|g]; [lia|]. cbn [parse_seq]. rewrite (rw_nil _ _ _ Ec1). destruct (Z.leb_spec min (0 + Z.of_nat (length b))); [lia|reflexivity].
Qed.
End Parse.
