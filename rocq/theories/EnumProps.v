(* Theorems about enumerations with named values *)
From Coq Require Import ZArith Lia Bool List.
From Verif Require Import ArrLib EnumModel EnumSpec EnumProofs.
Import ListNotations.
Open Scope Z_scope.

(* C197: the table of names is accepted if, and only if there are no duplicates, where letter case matters for names only
   when it is not to be ignored.  The first offending entry decides which error is reported.  With an accepted table, a value
   has the name of its entry, a name is parsed as the value of its entry, and nothing else has a name, or is parsed. *)
Theorem enum_table : forall ic entries,
  match make_mapper ic entries with
  | inl e =>
    (forall value, enum_name ic entries value = inl e) /\
    (forall name, enum_parse ic entries name = inl e) /\
    exists earlier value name later, entries = earlier ++ (value, name) :: later /\ clash_free ic earlier /\
      match e with
      | DuplicateValue => value_clash earlier value
      | DuplicateName => ~ value_clash earlier value /\ name_clash ic earlier name
      end
  | inr _ =>
    clash_free ic entries /\
    (forall value, exists res, enum_name ic entries value = inr res /\
      forall name, res = Some name <-> In (value, name) entries) /\
    (forall string, exists res, enum_parse ic entries string = inr res /\
      forall value, res = Some value <-> exists name, In (value, name) entries /\ same_name ic name string)
  end.
Proof.
  intros ic entries. unfold enum_name, enum_parse. destruct (make_mapper ic entries) as [e | m] eqn:E.
  - split; [reflexivity | split; [reflexivity |]]. exact (make_mapper_error _ _ _ E).
  - destruct (make_mapper_some _ _ _ E) as (M & F). split; [exact F | split].
    + intro value. eexists. split; [reflexivity |]. intro name. exact (mapper_name_right _ _ _ _ _ M).
    + intro string. exists (mapper_parse ic m string). split.
      * destruct (mapper_parse ic m string); reflexivity.
      * intro value. exact (mapper_parse_right _ _ _ _ _ M).
Qed.

(* "red", "Green", and "RED" *)
Example enum_table_case :
  enum_name true [(5, [114; 101; 100]); (2, [71; 114; 101; 101; 110])] 2 = inr (Some [71; 114; 101; 101; 110]) /\
  enum_parse true [(5, [114; 101; 100]); (2, [71; 114; 101; 101; 110])] [82; 69; 68] = inr (Some 5) /\
  enum_parse false [(5, [114; 101; 100]); (2, [71; 114; 101; 101; 110])] [82; 69; 68] = inr None /\
  enum_parse true [(5, [114; 101; 100]); (2, [71]); (3, [82; 69; 68])] [71] = inl DuplicateName /\
  enum_parse false [(5, [114; 101; 100]); (2, [71]); (5, [82; 69; 68])] [71] = inl DuplicateValue.
Proof. repeat split. Qed.

Lemma clash_free_unique : forall ic entries v1 n1 v2 n2 s, clash_free ic entries ->
  In (v1, n1) entries -> In (v2, n2) entries -> same_name ic n1 s -> same_name ic n2 s -> v1 = v2.
Proof.
  intros ic entries v1 n1 v2 n2 s F I1 I2 S1 S2. destruct (make_mapper_ok _ _ F) as (m & E).
  destruct (make_mapper_some _ _ _ E) as (M & _).
  assert (A : mapper_parse ic m s = Some v1) by (apply (mapper_parse_right _ _ _ _ _ M); exists n1; auto).
  assert (B : mapper_parse ic m s = Some v2) by (apply (mapper_parse_right _ _ _ _ _ M); exists n2; auto).
  congruence.
Qed.

Section Streams.
Context {C : Type} (ceqb : C -> C -> bool) (widen : Z -> C) (narrow : C -> Z) (is_alnum is_space : C -> bool).
Context (Hceqb : forall a b, ceqb a b = true <-> a = b).

Definition space (ch : C) : Prop := is_space ch = true.
(* a letter, a digit, or an underscore *)
Definition in_token (ch : C) : Prop := is_alnum ch = true \/ ch = widen 95.

Lemma token_test : forall ch, negb (is_alnum ch) && negb (ceqb ch (widen 95)) = false <-> in_token ch.
Proof.
  intro ch. unfold in_token. rewrite <- Hceqb.
  destruct (is_alnum ch), (ceqb ch (widen 95)); cbn; intuition discriminate.
Qed.

Definition is_nil {A} (l : list A) : bool := match l with [] => true | _ => false end.

Lemma read_loop_right : forall t rest ch text buffer, ch :: text = t ++ rest -> Forall in_token t ->
  starts_outside in_token rest ->
  read_loop ceqb widen is_alnum ch text buffer =
    (if is_nil (buffer ++ t) then None else Some (buffer ++ t), rest, is_nil rest).
Proof.
  induction t as [|c t IH]; intros rest ch text buffer E Ht Hr.
  - cbn in E. subst rest. cbn in Hr. rewrite <- token_test in Hr. apply not_false_is_true in Hr.
    destruct text; cbn [read_loop]; rewrite Hr, app_nil_r; destruct buffer; reflexivity.
  - inversion Ht as [|? ? H1 H2]; subst. cbn in E. injection E as -> E.
    pose proof (proj2 (token_test c) H1) as T.
    destruct text as [|ch' text]; cbn [read_loop]; rewrite T.
    + symmetry in E. apply app_eq_nil in E. destruct E as (-> & ->). destruct buffer; reflexivity.
    + rewrite (IH rest ch' text (buffer ++ [c]) E H2 Hr), <- app_assoc. reflexivity.
Qed.

Lemma skip_space_right : forall w s, Forall space w -> starts_outside space s ->
  skip_space is_space (w ++ s) = s.
Proof.
  induction w as [|c w IH]; intros s Hw Hs; cbn.
  - destruct s as [|c s]; [reflexivity|]. cbn in *. unfold space in Hs. destruct (is_space c); [tauto | reflexivity].
  - inversion Hw as [|? ? H1 H2]; subst. rewrite H1. apply IH; assumption.
Qed.

Lemma split_class : forall (p : C -> bool) s, exists a b, s = a ++ b /\ Forall (fun c => p c = true) a /\
  starts_outside (fun c => p c = true) b.
Proof.
  intros p. induction s as [|c s (a & b & E & Ha & Hb)].
  - exists [], []. repeat split; constructor.
  - destruct (p c) eqn:P.
    + exists (c :: a), b. split; [cbn; congruence | split; [constructor; assumption | assumption]].
    + exists [], (c :: s). split; [reflexivity | split; [constructor | cbn; congruence]].
Qed.

(* how the input operator divides the remaining characters *)
Definition divided (in_ : istream) (w t rest : list C) : Prop :=
  in_text in_ = w ++ t ++ rest /\ Forall space w /\
  (if in_skipws in_ then starts_outside space (t ++ rest) else w = []) /\
  Forall in_token t /\ starts_outside in_token rest.

Lemma divided_exists : forall in_, exists w t rest, divided in_ w t rest.
Proof.
  intros in_.
  assert (exists w s, in_text in_ = w ++ s /\ Forall space w /\
    (if in_skipws in_ then starts_outside space s else w = [])) as (w & s & E & Hw & Hs).
  { destruct (in_skipws in_).
    - destruct (split_class is_space (in_text in_)) as (a & b & H). exists a, b. exact H.
    - exists [], (in_text in_). repeat split. constructor. }
  destruct (split_class (fun c => is_alnum c || ceqb c (widen 95)) s) as (t & rest & Es & Ht & Hr).
  assert (T : forall c, is_alnum c || ceqb c (widen 95) = true <-> in_token c).
  { intro c. rewrite <- token_test. destruct (is_alnum c), (ceqb c (widen 95)); cbn; intuition discriminate. }
  exists w, t, rest. subst s. repeat split; try assumption.
  - revert Ht. apply Forall_impl. intros c H. apply T. exact H.
  - destruct rest as [|c rest]; [exact I|]. cbn in *. rewrite <- T. exact Hr.
Qed.

Notation read ic entries in_ e := (read_enum ceqb widen narrow is_alnum is_space ic entries in_ e).

Lemma sentry_func_right : forall ic entries in_ e w t rest, good in_ = true -> divided in_ w t rest ->
  read ic entries in_ e =
    let after eof fail bad := IStream rest (in_skipws in_) eof fail bad in
    match (if is_nil t then inr None else enum_parse ic entries (map narrow t)) with
    | inl _ => (after false false true, e)
    | inr (Some value) => (after (is_nil rest) false false, value)
    | inr None => (after (is_nil rest) true false, e)
    end.
Proof.
  intros ic entries [text sk eof fail bad] e w t rest G (E & Hw & Hs & Ht & Hr). cbn in E, Hs, G. subst text.
  unfold good in G. cbn in G. destruct eof, fail, bad; try discriminate.
  assert (S : (if sk then skip_space is_space (w ++ t ++ rest) else w ++ t ++ rest) = t ++ rest).
  { destruct sk; [apply skip_space_right; assumption | rewrite Hs; reflexivity]. }
  unfold read_enum, sentry. cbn [good in_eof in_fail in_bad in_skipws in_text orb negb].
  assert (F : forall r, r = t ++ rest -> r <> [] -> read_func ceqb widen narrow is_alnum ic entries r =
    (if is_nil t then inr None else enum_parse ic entries (map narrow t), rest, is_nil rest)).
  { intros [|c r] Er N; [congruence|]. cbn [read_func]. rewrite (read_loop_right t rest c r [] Er Ht Hr).
    cbn [app]. destruct t; reflexivity. }
  change (good _) with true. cbv iota.
  destruct sk; rewrite S.
  - destruct (t ++ rest) as [|c r] eqn:Etr.
    + apply app_eq_nil in Etr. destruct Etr as (-> & ->). reflexivity.
    + cbn [in_text in_skipws in_eof in_fail in_bad].
      rewrite (F (c :: r) eq_refl) by discriminate.
      destruct (if is_nil t then _ else _) as [err | [value |]]; reflexivity.
  - destruct (t ++ rest) as [|c r] eqn:Etr.
    + apply app_eq_nil in Etr. destruct Etr as (-> & ->). reflexivity.
    + cbn [in_text in_skipws in_eof in_fail in_bad].
      rewrite (F (c :: r) eq_refl) by discriminate.
      destruct (if is_nil t then _ else _) as [err | [value |]]; reflexivity.
Qed.

(* C198: the input operator skips space, unless not to, consumes the longest sequence of letters, digits, and underscores,
   and nothing after it.  The value is that of the entry with that name.  If there is none, or if there are no such
   characters, it fails without changing the value.  The end of input is reported if, and only if there is nothing left. If
   the stream is not good, nothing is consumed.  A bad table makes the stream bad.  The operator for unwrapped values does
   the same. *)
Theorem enum_read : forall ic entries in_ e,
  (good in_ = true -> exists w t rest, divided in_ w t rest) /\
  (forall w t rest, good in_ = true -> divided in_ w t rest ->
    exists in_2 e_2, read ic entries in_ e = (in_2, e_2) /\
      in_text in_2 = rest /\ in_skipws in_2 = in_skipws in_ /\
      (clash_free ic entries ->
        (in_eof in_2 = true <-> rest = []) /\ in_bad in_2 = false /\
        (in_fail in_2 = false -> t <> [] /\ exists n, In (e_2, n) entries /\ same_name ic n (map narrow t)) /\
        (in_fail in_2 = true -> e_2 = e /\
          (t <> [] -> ~ exists v n, In (v, n) entries /\ same_name ic n (map narrow t)))) /\
      (~ clash_free ic entries -> t <> [] -> in_bad in_2 = true /\ e_2 = e)) /\
  (good in_ = false ->
    read ic entries in_ e = (IStream (in_text in_) (in_skipws in_) (in_eof in_) true (in_bad in_), e)) /\
  read_plain ceqb widen narrow is_alnum is_space ic entries in_ e = read ic entries in_ e.
Proof.
  intros ic entries in_ e.
  assert (Bad : good in_ = false -> forall e,
    read ic entries in_ e = (IStream (in_text in_) (in_skipws in_) (in_eof in_) true (in_bad in_), e)).
  { intros G e'. unfold read_enum, sentry. rewrite G. destruct in_ as [text sk [|] [|] [|]]; reflexivity. }
  split; [|split; [|split]].
  - intros _. apply divided_exists.
  - intros w t rest G D. rewrite (sentry_func_right ic entries in_ e w t rest G D). cbv zeta.
    pose proof (enum_table ic entries) as T.
    assert (Nil : is_nil rest = true <-> rest = []) by (destruct rest; cbn; split; congruence).
    destruct t as [|c t'] eqn:Et; cbn [is_nil].
    + do 2 eexists. split; [reflexivity|]. cbn [in_text in_skipws in_eof in_fail in_bad].
      split; [reflexivity | split; [reflexivity | split]].
      * intros _. split; [exact Nil | split; [reflexivity | split; [discriminate |]]].
        intros _. split; [reflexivity | congruence].
      * congruence.
    + rewrite <- Et. assert (Nt : t <> []) by congruence.
      destruct (make_mapper ic entries) as [err | m] eqn:Em.
      * destruct T as (_ & T & (a & v & n & b & Ee & _ & Hc)). rewrite T.
        do 2 eexists. split; [reflexivity|]. cbn [in_text in_skipws in_eof in_fail in_bad].
        split; [reflexivity | split; [reflexivity | split]].
        -- intro F. exfalso. destruct (F a v n b Ee) as (N1 & N2). destruct err; tauto.
        -- intros _ _. split; reflexivity.
      * destruct T as (F & _ & T). destruct (T (map narrow t)) as (res & -> & R).
        destruct res as [value|].
        -- do 2 eexists. split; [reflexivity|]. cbn [in_text in_skipws in_eof in_fail in_bad].
           split; [reflexivity | split; [reflexivity | split]].
           ++ intros _. split; [exact Nil | split; [reflexivity | split; [|discriminate]]].
              intros _. split; [congruence | apply R; reflexivity].
           ++ intros NF. tauto.
        -- do 2 eexists. split; [reflexivity|]. cbn [in_text in_skipws in_eof in_fail in_bad].
           split; [reflexivity | split; [reflexivity | split]].
           ++ intros _. split; [exact Nil | split; [reflexivity | split; [discriminate |]]].
              intros _. split; [reflexivity |]. intros _ (v & H). apply R in H. discriminate.
           ++ intros NF. tauto.
  - intro G. apply Bad. exact G.
  - unfold read_plain. destruct (good in_) eqn:G.
    + destruct (divided_exists in_) as (w & t & rest & D).
      rewrite !(sentry_func_right ic entries in_ _ w t rest G D). cbv zeta.
      destruct (if is_nil t then _ else _) as [err | [value |]]; reflexivity.
    + rewrite !(Bad eq_refl). reflexivity.
Qed.

(* C199: what is written for a value with a name is read as the same value, provided that the name is something that can be
   read, and that it is not followed by a character that can be part of a name.  Partial, because it is not the case for
   every name, see enum_round_trip_refuted.  A value without a name is written as an integer. *)
Theorem enum_round_trip_partial : forall ic entries v, clash_free ic entries ->
  (forall n, In (v, n) entries ->
    write_enum widen ic entries v = inr (OutText (map widen n)) /\
    forall (w rest : list C) (sk : bool) (e : Z),
    n <> [] ->
    Forall (fun c => in_token (widen c) /\ narrow (widen c) = c) n ->
    Forall space w -> (if sk then starts_outside space (map widen n) else w = []) ->
    starts_outside in_token rest ->
    read ic entries (IStream (w ++ map widen n ++ rest) sk false false false) e =
      (IStream rest sk (is_nil rest) false false, v)) /\
  ((~ exists n, In (v, n) entries) -> write_enum widen ic entries v = inr (OutInt v)).
Proof.
  intros ic entries v F. pose proof (enum_table ic entries) as T.
  destruct (make_mapper_ok _ _ F) as (m & Em). rewrite Em in T. destruct T as (_ & Tn & Tp).
  destruct (Tn v) as (res & En & R). split.
  - intros n Hin. apply R in Hin as Er. subst res. split; [unfold write_enum; rewrite En; reflexivity|].
    intros w rest sk e Nn Hn Hw Hs Hr.
    assert (D : divided (IStream (w ++ map widen n ++ rest) sk false false false) w (map widen n) rest).
    { unfold divided. cbn [in_text in_skipws]. split; [reflexivity | split; [exact Hw | split; [|split; [|exact Hr]]]].
      - destruct sk; [|exact Hs]. destruct n; [congruence | exact Hs].
      - apply Forall_map. revert Hn. apply Forall_impl. tauto. }
    rewrite (sentry_func_right ic entries (IStream (w ++ map widen n ++ rest) sk false false false) e _ _ _ eq_refl D). cbv zeta.
    assert (Hm : map narrow (map widen n) = n).
    { clear -Hn. induction Hn as [|c n (_ & H) _ IH]; cbn; congruence. }
    rewrite Hm. destruct (Tp n) as (res & Ep & Rp). rewrite Ep.
    assert (res = Some v) as ->.
    { apply Rp. exists n. split; [exact Hin|]. apply name_key_same. reflexivity. }
    destruct n; [congruence | reflexivity].
  - intro N. unfold write_enum. rewrite En. destruct res as [n|]; [|reflexivity].
    exfalso. apply N. exists n. apply R. reflexivity.
Qed.
End Streams.

(* characters are narrow, and ASCII *)
Definition ascii_alnum (c : Z) : bool :=
  ((48 <=? c) && (c <=? 57)) || ((65 <=? c) && (c <=? 90)) || ((97 <=? c) && (c <=? 122)).
Definition ascii_space (c : Z) : bool := (c =? 32) || ((9 <=? c) && (c <=? 13)).
Definition read_ascii := read_enum Z.eqb (fun c => c) (fun c => c) ascii_alnum ascii_space.

(* " Red_1;" and " rex", with an entry for "red_1" *)
Example enum_read_case :
  read_ascii true [(7, [120]); (5, [114; 101; 100; 95; 49])]
    (IStream [32; 82; 101; 100; 95; 49; 59] true false false false) 7 =
    (IStream [59] true false false false, 5) /\
  read_ascii true [(7, [120]); (5, [114; 101; 100; 95; 49])]
    (IStream [32; 114; 101; 120] true false false false) 7 =
    (IStream [] true true true false, 7) /\
  read_ascii true [(7, [120]); (5, [114; 101; 100; 95; 49])]
    (IStream [32; 82; 101; 100; 95; 49; 59] false false false false) 7 =
    (IStream [32; 82; 101; 100; 95; 49; 59] false false true false, 7) /\
  divided (fun c => c) ascii_alnum ascii_space (IStream [32; 82; 101; 100; 95; 49; 59] true false false false)
    [32] [82; 101; 100; 95; 49] [59].
Proof.
  split; [reflexivity | split; [reflexivity | split; [reflexivity |]]].
  unfold divided, space, in_token. cbn.
  split; [reflexivity | split; [repeat constructor | split; [discriminate | split]]].
  - repeat (constructor; [solve [left; reflexivity | right; reflexivity]|]). constructor.
  - intros [H | H]; discriminate.
Qed.

Lemma single_clash_free : forall ic v n, clash_free ic [(v, n)].
Proof.
  intros ic v n a v' n' b E. destruct a as [|p a]; cbn in E.
  - split; [intros (? & []) | intros (? & ? & [] & _)].
  - injection E as _ E. destruct a; discriminate.
Qed.

Example enum_round_trip_case :
  clash_free false [(3, [97; 95])] /\
  Forall (fun c => in_token (fun c => c) ascii_alnum c /\ c = c) [97; 95] /\
  write_enum (fun c : Z => c) false [(3, [97; 95])] 3 = inr (OutText [97; 95]) /\
  read_ascii false [(3, [97; 95])] (IStream [32; 97; 95; 46] true false false false) 0 =
    (IStream [46] true false false false, 3) /\
  write_enum (fun c : Z => c) false [(3, [97; 95])] 4 = inr (OutInt 4).
Proof.
  split; [apply single_clash_free | split; [|repeat split]].
  constructor; [split; [left|]; reflexivity|]. constructor; [split; [right|]; reflexivity|]. constructor.
Qed.

(* A value with the name "a-b", which has characters of the basic character set only, is not read as it is written.  What
   is more, "a" may be the name of another value. *)
Theorem enum_round_trip_refuted :
  (exists entries v text, clash_free false entries /\
    write_enum (fun c : Z => c) false entries v = inr (OutText text) /\
    in_fail (fst (read_ascii false entries (IStream text true false false false) 0)) = true) /\
  (exists entries v text v' rest, clash_free false entries /\
    write_enum (fun c : Z => c) false entries v = inr (OutText text) /\ v' <> v /\ rest <> [] /\
    read_ascii false entries (IStream text true false false false) 0 = (IStream rest true false false false, v')).
Proof.
  split.
  - exists [(1, [97; 45; 98])], 1, [97; 45; 98].
    split; [apply single_clash_free | split; reflexivity].
  - exists [(1, [97; 45; 98]); (2, [97])], 1, [97; 45; 98], 2, [45; 98].
    split; [|repeat split; discriminate].
    apply (make_mapper_some false _ _ (eq_refl : make_mapper false [(1, [97; 45; 98]); (2, [97])] =
      inr (Mapper [(1, [97; 45; 98]); (2, [97])] [([97], 2); ([97; 45; 98], 1)]))).
Qed.

Print Assumptions enum_table.
Print Assumptions enum_read.
Print Assumptions enum_round_trip_partial.
Print Assumptions enum_round_trip_refuted.
