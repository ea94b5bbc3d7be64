(* Lemmas on formatting and parsing as list. *)
From Coq Require Import List Arith Bool Lia.
From Verif Require Import AsListModel AsListSpec.
Import ListNotations.

(* ---- spaces ---- *)

Lemma begins_dec : forall s : text, {begins_with_space s} + {~ begins_with_space s}.
Proof.
  intros [|x s]; [right; intros [r E]; discriminate|].
  destruct (Nat.eq_dec x 32) as [->|N]; [left; exists s; reflexivity|right; intros [r E]; injection E as E1 E2; auto].
Qed.

Lemma skip_spaces_app : forall sp s, spaces sp -> ~ begins_with_space s -> skip_spaces (sp ++ s) = s.
Proof.
  induction sp as [|x sp IH]; intros s A B; cbn.
  - destruct s as [|x s]; [reflexivity|]. cbn. destruct (Nat.eqb_spec x space_char) as [->|]; [|reflexivity].
    exfalso. apply B. exists s. reflexivity.
  - inversion A; subst. cbn. apply IH; assumption.
Qed.

Lemma skip_spaces_split : forall s, exists sp, s = sp ++ skip_spaces s /\ spaces sp /\ ~ begins_with_space (skip_spaces s).
Proof.
  induction s as [|x s IH]; cbn.
  - exists []. repeat split; [constructor|]. intros [r E]; discriminate.
  - destruct (Nat.eqb_spec x space_char) as [->|N].
    + destruct IH as (sp & E & A & B). exists (space_char :: sp). cbn. split; [congruence|]. split; [|assumption].
      constructor; [reflexivity|assumption].
    + exists []. split; [reflexivity|]. split; [constructor|]. intros [r E]. injection E as E1 E2. apply N, E1.
Qed.

Lemma spaces_rev : forall s, spaces s -> spaces (rev s).
Proof. intros s A. apply Forall_rev. assumption. Qed.

Lemma ends_rev : forall s, ends_with_space s <-> begins_with_space (rev s).
Proof.
  intros s. split; intros [r E].
  - exists (rev r). rewrite E, rev_app_distr. reflexivity.
  - exists (rev r). rewrite <- (rev_involutive s), E. reflexivity.
Qed.

Lemma drop_spaces_app : forall sp s, spaces sp -> ~ ends_with_space s -> drop_spaces (s ++ sp) = s.
Proof.
  intros sp s A B. unfold drop_spaces. rewrite rev_app_distr, skip_spaces_app; [apply rev_involutive|apply spaces_rev; assumption|].
  rewrite <- ends_rev. assumption.
Qed.

Lemma drop_spaces_split : forall s, exists sp, s = drop_spaces s ++ sp /\ spaces sp /\ ~ ends_with_space (drop_spaces s).
Proof.
  intros s. destruct (skip_spaces_split (rev s)) as (sp & E & A & B). exists (rev sp).
  unfold drop_spaces. split; [|split].
  - rewrite <- rev_app_distr, <- E. symmetry. apply rev_involutive.
  - apply spaces_rev. assumption.
  - rewrite ends_rev, rev_involutive. assumption.
Qed.

Lemma drop_spaces_no_begin : forall s, ~ begins_with_space s -> ~ begins_with_space (drop_spaces s).
Proof.
  intros s A [r E]. destruct (drop_spaces_split s) as (sp & E2 & _). apply A. exists (r ++ sp). rewrite E2, E. reflexivity.
Qed.

Lemma spaces_nil_end : forall s, spaces s -> ~ begins_with_space s -> s = [].
Proof.
  intros [|x s] A B; [reflexivity|]. inversion A; subst. exfalso. apply B. exists s. reflexivity.
Qed.

Lemma firstn_exact : forall {A} (a b : list A) n, length a = n -> firstn n (a ++ b) = a.
Proof. intros A a b n <-. rewrite firstn_app, Nat.sub_diag, firstn_all. apply app_nil_r. Qed.
Lemma skipn_exact : forall {A} (a b : list A) n, length a = n -> skipn n (a ++ b) = b.
Proof. intros A a b n <-. rewrite skipn_app, Nat.sub_diag, skipn_all. reflexivity. Qed.

Section P.
  Variable V : Type.
  Variable format : V -> text.
  Variable delegate : text -> V -> bool * V.
  Variable c : config.

  Lemma allow_space_iff : allow_space c = true <-> accepts_space c.
  Proof. unfold allow_space, accepts_space. destruct (space c); split; congruence. Qed.

  (* ---- formatting ---- *)

  Definition between : text := separator c :: (if space_after_separator c then [32] else []).

  Lemma format_elems_joined : forall l, format_elems V format c l = joined between (map format l).
  Proof.
    assert (M : forall l v, format v ++ format_more V format c l = joined between (map format (v :: l))).
    { induction l as [|w l IH]; intros v.
      - cbn. apply app_nil_r.
      - change (joined between (map format (v :: w :: l))) with (format v ++ between ++ joined between (map format (w :: l))).
        rewrite <- IH. cbn. unfold between. reflexivity. }
    intros [|v l]; [reflexivity|apply M].
  Qed.

  Lemma adds_space_iff : space_after_separator c = true <-> adds_space c.
  Proof.
    unfold space_after_separator, adds_space, space_char. destruct (space c); split; intros A; try discriminate; try tauto;
      try (destruct A as [A|[A|[A B]]]; try discriminate).
    - apply negb_true_iff, Nat.eqb_neq in A. tauto.
    - apply negb_true_iff, Nat.eqb_neq. assumption.
  Qed.
  Lemma adds_inside_iff : space_inside_brackets c = true <-> adds_inside c.
  Proof. unfold space_inside_brackets, adds_inside. destruct (space c); split; congruence. Qed.

  (* ---- finding the separator ---- *)

  Lemma find_none : forall s t, find_separator c s = (t, None) <-> s = t /\ ~ In (separator c) t.
  Proof.
    induction s as [|x s IH]; intros t; cbn.
    - split; [intros E; injection E as <-; split; [reflexivity|intros []]|intros [<- _]; reflexivity].
    - destruct (Nat.eqb_spec x (separator c)) as [->|N].
      + split; [discriminate|]. intros [<- A]. exfalso. apply A. left. reflexivity.
      + destruct (find_separator c s) as [a b] eqn:E. split.
        * intros E2. injection E2 as <- ->. destruct (proj1 (IH a) eq_refl) as [-> A]. split; [reflexivity|].
          cbn. tauto.
        * intros [<- A]. assert (B : (a, b) = (s, None)).
          { apply IH. split; [reflexivity|]. intros B. apply A. right. assumption. }
          injection B as -> ->. reflexivity.
  Qed.

  Lemma find_some : forall s t r, find_separator c s = (t, Some r) <-> s = t ++ separator c :: r /\ ~ In (separator c) t.
  Proof.
    induction s as [|x s IH]; intros t r; cbn.
    - split; [discriminate|]. intros [E _]. destruct t; discriminate.
    - destruct (Nat.eqb_spec x (separator c)) as [->|N].
      + split.
        * intros E. injection E as <- <-. split; [reflexivity|intros []].
        * intros [E A]. destruct t as [|y t]; [injection E as ->; reflexivity|]. injection E as E0 E. exfalso. apply A. left. symmetry. exact E0.
      + destruct (find_separator c s) as [a b] eqn:E. split.
        * intros E2. injection E2 as <- ->. destruct (proj1 (IH a r) eq_refl) as [-> A]. split; [reflexivity|]. cbn. tauto.
        * intros [E2 A]. destruct t as [|y t]; [injection E2 as E2 E3; congruence|]. injection E2 as -> E2.
          assert (B : (a, b) = (t, Some r)). { apply IH. split; [assumption|]. intros B. apply A. right. assumption. }
          injection B as -> ->. reflexivity.
  Qed.

  (* ---- the elements ---- *)

  Lemma parse_elems_sound : forall l s l' n, l <> [] -> parse_elems V delegate c l s = (true, l', n) ->
    exists ts, separated c ts s /\ length ts = n /\ n <= length l /\
      assigned delegate ts (firstn n l) (firstn n l') /\ skipn n l' = skipn n l.
  Proof.
    induction l as [|v l IH]; intros s l' n N E; [congruence|]. clear N.
    cbn [parse_elems] in E. destruct (find_separator c s) as [t rest] eqn:F. destruct (delegate t v) as [ok v'] eqn:D.
    destruct ok; [|discriminate].
    assert (One : rest = None -> l' = v' :: l -> n = 1 ->
      exists ts, separated c ts s /\ length ts = n /\ n <= length (v :: l) /\
        assigned delegate ts (firstn n (v :: l)) (firstn n l') /\ skipn n l' = skipn n (v :: l)).
    { intros -> -> ->. apply find_none in F. destruct F as [-> F]. exists [t]. split; [constructor; assumption|].
      split; [reflexivity|]. split; [cbn; lia|]. split; [|reflexivity]. split; [reflexivity|]. split; [reflexivity|].
      intros [|i] t' w w' E1 E2 E3; cbn in *; [congruence|]. destruct i; discriminate. }
    destruct l as [|v2 l].
    - destruct rest; [discriminate|]. injection E as <- <-. apply One; reflexivity.
    - destruct rest as [r|]; [|injection E as <- <-; apply One; reflexivity]. clear One.
      apply find_some in F. destruct F as [-> F].
      destruct (parse_elems V delegate c (v2 :: l) (if allow_space c then skip_spaces r else r)) as [[ok l2] m] eqn:P.
      injection E as -> <- <-. specialize (IH _ l2 m ltac:(discriminate) P). destruct IH as (ts & S1 & L1 & L2 & A & K).
      exists (t :: ts). split; [|split; [cbn; congruence|split; [cbn in *; lia|split]]].
      + destruct (allow_space c) eqn:W.
        * apply allow_space_iff in W. destruct (skip_spaces_split r) as (sp & Er & Sp & Nb). rewrite Er. apply sep_more; try assumption.
          -- split; [assumption|]. intros Z. congruence.
          -- auto.
        * change r with ([] ++ r). apply sep_more; try assumption.
          -- split; [constructor|reflexivity].
          -- intros Z. apply allow_space_iff in Z. congruence.
      + destruct A as (A1 & A2 & A3). split; [cbn; congruence|]. split; [cbn; congruence|].
        intros [|i] t' w w' E1 E2 E3; cbn in E1, E2, E3; [congruence|]. eapply A3; eassumption.
      + exact K.
  Qed.

  Lemma separated_nonempty : forall ts s, separated c ts s -> ts <> [].
  Proof. intros ts s [t A|t sp ts' s' A B C D]; discriminate. Qed.

  Lemma parse_elems_complete : forall ts s, separated c ts s -> forall l l1, length ts <= length l ->
    assigned delegate ts (firstn (length ts) l) l1 ->
    parse_elems V delegate c l s = (true, l1 ++ skipn (length ts) l, length ts).
  Proof.
    intros ts s A. induction A as [t N|t sp ts s N Al Nb A IH]; intros l l1 L As.
    - destruct l as [|v l]; [cbn in L; lia|]. destruct As as (A1 & A2 & A3).
      destruct l1 as [|v' l1]; [discriminate|]. destruct l1; [|discriminate].
      assert (D : delegate t v = (true, v')) by (apply (A3 0); reflexivity).
      cbn [parse_elems]. rewrite (proj2 (find_none t t)) by (split; [reflexivity|assumption]). rewrite D. cbn.
      destruct l; reflexivity.
    - destruct l as [|v l]; [cbn in L; lia|]. destruct As as (A1 & A2 & A3).
      destruct l1 as [|v' l1]; [discriminate|].
      assert (D : delegate t v = (true, v')) by (apply (A3 0); reflexivity).
      cbn [parse_elems]. rewrite (proj2 (find_some _ t (sp ++ s))) by (split; [reflexivity|assumption]). rewrite D.
      assert (L' : length ts <= length l) by (cbn in L; lia).
      assert (Sk : (if allow_space c then skip_spaces (sp ++ s) else sp ++ s) = s).
      { destruct (allow_space c) eqn:W.
        - apply skip_spaces_app; [apply Al|]. apply Nb, allow_space_iff, W.
        - destruct Al as [_ Al]. rewrite Al; [reflexivity|]. revert W. unfold allow_space. destruct (space c); congruence. }
      rewrite Sk. rewrite (IH l l1).
      + destruct l as [|v2 l]; [|reflexivity]. pose proof (separated_nonempty _ _ A). destruct ts; [congruence|cbn in L'; lia].
      + assumption.
      + split; [cbn in A1; lia|]. split; [cbn in A2; lia|]. intros i t' w w' E1 E2 E3. apply (A3 (S i)); assumption.
  Qed.

  (* ---- brackets ---- *)

  Definition inside (str : text) : option text :=
    if bracketed c then
      match str with
      | [] => None
      | x :: s =>
        if negb (x =? opening_bracket c) then None else
        match rev s with
        | [] => None
        | y :: r =>
          if negb (y =? closing_bracket c) then None else
          let s := rev r in
          Some (if allow_space c then drop_spaces (skip_spaces s) else s)
        end
      end
    else Some str.

  Lemma parse_as_list_eq : forall l str, parse_as_list V delegate c l str =
    match inside str with
    | None => (false, l, 0)
    | Some s => match l with _ :: _ => parse_elems V delegate c l s | [] => (length str =? 0, l, 0) end
    end.
  Proof. reflexivity. Qed.

  Lemma is_list_of_inside : forall ts str, is_list_of c ts str <-> exists s, inside str = Some s /\ separated c ts s.
  Proof.
    intros ts str. unfold is_list_of, inside. destruct (bracketed c).
    2:{ split; [intros A; exists str; auto|intros (s & E & A); injection E as ->; assumption]. }
    split.
    - intros (sp1 & s & sp2 & -> & A1 & A2 & B & N & S). exists s. split; [|assumption].
      rewrite Nat.eqb_refl. cbn [negb]. rewrite !app_assoc, rev_unit. rewrite Nat.eqb_refl. cbn [negb]. rewrite rev_involutive.
      f_equal. destruct (allow_space c) eqn:W.
      + apply allow_space_iff in W. destruct (B W) as [B1 B2]. rewrite <- app_assoc.
        assert (Q : ~ begins_with_space (s ++ sp2)).
        { destruct s as [|x s]; [rewrite (N eq_refl); assumption|]. intros [r E]. injection E as -> E. apply B1. exists s. reflexivity. }
        rewrite skip_spaces_app by (assumption || apply A1). apply drop_spaces_app; [apply A2|assumption].
      + assert (Z : space c = sp_none) by (revert W; unfold allow_space; destruct (space c); congruence).
        destruct A1 as [_ A1], A2 as [_ A2]. rewrite A1, A2 by assumption. cbn. apply app_nil_r.
    - intros (s & E & S). destruct str as [|x str]; [discriminate|].
      destruct (Nat.eqb_spec x (opening_bracket c)) as [->|]; [|discriminate]. cbn [negb] in E.
      destruct (rev str) as [|y r] eqn:R; [discriminate|].
      destruct (Nat.eqb_spec y (closing_bracket c)) as [->|]; [|discriminate]. cbn [negb] in E.
      assert (Q : str = rev r ++ [closing_bracket c]) by (rewrite <- (rev_involutive str), R; reflexivity).
      injection E as E. subst str. destruct (allow_space c) eqn:W.
      + apply allow_space_iff in W. destruct (skip_spaces_split (rev r)) as (sp1 & E1 & P1 & B1).
        destruct (drop_spaces_split (skip_spaces (rev r))) as (sp2 & E2 & P2 & B2).
        exists sp1, s, sp2. rewrite E in E2, B2. split; [|split; [|split; [|split; [|split]]]].
        * rewrite E1 at 1. rewrite E2. rewrite <- !app_assoc. reflexivity.
        * split; [assumption|congruence].
        * split; [assumption|congruence].
        * intros _. split; [|assumption]. rewrite <- E. apply drop_spaces_no_begin. assumption.
        * intros ->. cbn in E2. rewrite E2 in B1. apply spaces_nil_end; assumption.
        * assumption.
      + exists [], s, []. subst s. split; [reflexivity|]. split; [split; [constructor|reflexivity]|].
        split; [split; [constructor|reflexivity]|]. split; [|split; [reflexivity|assumption]].
        intros Z. apply allow_space_iff in Z. congruence.
  Qed.

  Lemma parse_as_list_iff : forall l str l' n, l <> [] ->
    (parse_as_list V delegate c l str = (true, l', n) <->
     exists ts, is_list_of c ts str /\ length ts = n /\ n <= length l /\
       assigned delegate ts (firstn n l) (firstn n l') /\ skipn n l' = skipn n l).
  Proof.
    intros l str l' n N. rewrite parse_as_list_eq. split.
    - intros E. destruct (inside str) as [s|] eqn:I; [|discriminate].
      assert (E' : parse_elems V delegate c l s = (true, l', n)) by (destruct l; [congruence|exact E]).
      destruct (parse_elems_sound _ _ _ _ N E') as (ts & A & R). exists ts. split; [|exact R].
      apply is_list_of_inside. exists s. auto.
    - intros (ts & A & L & L2 & As & K). apply is_list_of_inside in A. destruct A as (s & I & A). rewrite I.
      subst n. pose proof (parse_elems_complete ts s A l (firstn (length ts) l') L2 As) as P.
      rewrite <- K, firstn_skipn in P. destruct l; [congruence|exact P].
  Qed.

  (* ---- round trip ---- *)

  Lemma clean_begins : forall t s, accepts_space c -> clean c t -> ~ begins_with_space (t ++ s).
  Proof.
    intros t s W [_ A] [r E]. destruct (A W) as (N & B & _). destruct t as [|x t]; [congruence|].
    injection E as -> E. apply B. exists t. reflexivity.
  Qed.

  Lemma joined_begins : forall ts, ts <> [] -> accepts_space c -> Forall (clean c) ts -> ~ begins_with_space (joined between ts).
  Proof.
    intros [|t [|t2 ts]] N W A; [congruence| |].
    - cbn. rewrite <- (app_nil_r t). inversion A; subst. apply clean_begins; assumption.
    - inversion A; subst. apply clean_begins; assumption.
  Qed.

  Lemma ends_app : forall a b, b <> [] -> ends_with_space (a ++ b) -> ends_with_space b.
  Proof.
    intros a b N [r E]. destruct (exists_last N) as (b' & x & ->). rewrite app_assoc in E. apply app_inj_tail in E.
    destruct E as [_ ->]. exists b'. reflexivity.
  Qed.

  Lemma joined_ends : forall ts, ts <> [] -> accepts_space c -> Forall (clean c) ts ->
    joined between ts <> [] /\ ~ ends_with_space (joined between ts).
  Proof.
    induction ts as [|t ts IH]; intros N W A; [congruence|]. inversion A as [|? ? [A1 A2] A3]; subst. destruct (A2 W) as (B1 & B2 & B3).
    destruct ts as [|t2 ts]; [split; assumption|].
    destruct (IH ltac:(discriminate) W A3) as [C1 C2].
    change (joined between (t :: t2 :: ts)) with (t ++ between ++ joined between (t2 :: ts)). split.
    - destruct t; [congruence|discriminate].
    - intros E. rewrite app_assoc in E. apply ends_app in E; auto.
  Qed.

  Lemma joined_separated : forall ts, ts <> [] -> Forall (clean c) ts -> separated c ts (joined between ts).
  Proof.
    induction ts as [|t ts IH]; intros N A; [congruence|]. inversion A as [|? ? [A1 A2] A3]; subst.
    destruct ts as [|t2 ts]; [constructor; assumption|].
    change (joined between (t :: t2 :: ts)) with
      (t ++ separator c :: (if space_after_separator c then [32] else []) ++ joined between (t2 :: ts)).
    apply sep_more.
    - assumption.
    - split.
      + destruct (space_after_separator c); repeat constructor.
      + intros Z. unfold space_after_separator. rewrite Z. reflexivity.
    - intros W. apply joined_begins; [discriminate|assumption|assumption].
    - apply IH; [discriminate|assumption].
  Qed.

  Lemma format_is_list : forall l, l <> [] -> Forall (fun v => clean c (format v)) l ->
    is_list_of c (map format l) (format_as_list V format c l).
  Proof.
    intros l N A. assert (A' : Forall (clean c) (map format l)) by (apply Forall_map; assumption).
    assert (N' : map format l <> []) by (destruct l; [congruence|discriminate]).
    pose proof (joined_separated _ N' A') as S. unfold is_list_of, format_as_list. rewrite format_elems_joined.
    destruct (bracketed c).
    - set (sp := if space_inside_brackets c then [space_char] else []).
      exists sp, (joined between (map format l)), sp.
      assert (Al : allowed c sp).
      { unfold sp. split; [destruct (space_inside_brackets c); repeat constructor|].
        intros Z. unfold space_inside_brackets. rewrite Z. reflexivity. }
      split; [cbn; rewrite <- ?app_assoc; reflexivity|]. split; [assumption|]. split; [assumption|].
      split; [|split; [|assumption]].
      + intros W. split; [apply joined_begins; assumption|apply joined_ends; assumption].
      + intros Z. unfold sp. destruct (space_inside_brackets c) eqn:I; [|reflexivity].
        apply adds_inside_iff in I. exfalso. apply (proj1 (joined_ends _ N' ltac:(unfold accepts_space; rewrite I; discriminate) A')). assumption.
    - rewrite app_nil_r. exact S.
  Qed.

  Lemma round_trip_as_list : forall k l target, 1 <= k -> length target = length l -> k <= length l ->
    Forall (fun v => clean c (format v)) (firstn k l) -> (forall v w, In v l -> delegate (format v) w = (true, v)) ->
    parse_as_list V delegate c target (format_as_list V format c (firstn k l)) = (true, firstn k l ++ skipn k target, k).
  Proof.
    intros k l target K L KL A D.
    assert (Lf : length (firstn k l) = k) by (apply firstn_length_le; assumption).
    assert (Ff : firstn k (firstn k l ++ skipn k target) = firstn k l).
    { rewrite firstn_app, Lf, Nat.sub_diag, firstn_firstn, Nat.min_id. apply app_nil_r. }
    apply parse_as_list_iff; [destruct target; [cbn in L; lia|discriminate]|].
    exists (map format (firstn k l)). split; [|split; [|split; [|split]]].
    - apply format_is_list; [|assumption]. intros E. rewrite E in Lf. cbn in Lf. lia.
    - rewrite map_length. assumption.
    - lia.
    - split; [rewrite map_length, Lf, firstn_length_le by lia; reflexivity|].
      split; [rewrite map_length, Ff; reflexivity|].
      intros i t v v' E1 E2 E3. rewrite Ff in E3.
      rewrite nth_error_map in E1. rewrite E3 in E1. injection E1 as <-. apply D.
      apply nth_error_In in E3. rewrite <- (firstn_skipn k l). apply in_or_app. left. assumption.
    - rewrite skipn_app, Lf, Nat.sub_diag. rewrite skipn_all2 by lia. reflexivity.
  Qed.

  (* ---- leaving out elements ---- *)

  Variable eqb : V -> V -> bool.
  Variable default : V.
  Hypothesis eqb_eq : forall v w, eqb v w = true <-> v = w.

  Lemma elide_spec : forall min_elems copy l i, 1 <= min_elems -> i <= length l ->
    let k := elide V eqb default min_elems copy l i in
    k <= i /\ (min_elems <= k \/ k = i) /\
    (forall j, k <= j < i -> nth j l default = if copy then nth (j - 1) l default else default) /\
    (min_elems < k -> nth (k - 1) l default <> if copy then nth (k - 1 - 1) l default else default).
  Proof.
    intros m copy l i M. induction i as [|i IH]; intros L k; subst k.
    - cbn. split; [lia|]. split; [auto|]. split; intros; lia.
    - cbn [elide]. destruct (Nat.ltb_spec m (S i)) as [Lt|Ge]; cbn [andb].
      + destruct (eqb (nth i l default) (if copy then nth (i - 1) l default else default)) eqn:E.
        * apply eqb_eq in E. specialize (IH ltac:(lia)). destruct IH as (I1 & I2 & I3 & I4). split; [lia|]. split; [lia|].
          split; [|assumption]. intros j J. destruct (Nat.eq_dec j i) as [->|]; [assumption|apply I3; lia].
        * split; [lia|]. split; [auto|]. split; [intros; lia|]. intros _. replace (S i - 1) with i by lia.
          intros Q. apply eqb_eq in Q. congruence.
      + split; [lia|]. split; [auto|]. split; intros; lia.
  Qed.

  Lemma nth_repeat' : forall (x : V) n j d, j < n -> nth j (repeat x n) d = x.
  Proof. induction n; intros [|j] d L; cbn; try lia; auto. apply IHn. lia. Qed.

  Lemma list_repeat : forall (l : list V) x, (forall j, j < length l -> nth j l default = x) -> l = repeat x (length l).
  Proof.
    induction l as [|y l IH]; intros x A; [reflexivity|]. cbn. f_equal; [apply (A 0); cbn; lia|].
    apply IH. intros j J. apply (A (S j)). cbn. lia.
  Qed.

  Lemma nth_skipn' : forall k (l : list V) j, nth j (skipn k l) default = nth (k + j) l default.
  Proof.
    induction k as [|k IH]; intros [|x l] j; try reflexivity.
    - destruct j; reflexivity.
    - cbn. apply IH.
  Qed.

  Definition fill_of (copy : bool) (l : list V) (k : nat) : V := if copy then nth (k - 1) l default else default.

  Lemma elided_repeat : forall (copy : bool) (l : list V) k, 1 <= k <= length l ->
    (forall j, k <= j < length l -> nth j l default = if copy then nth (j - 1) l default else default) ->
    l = firstn k l ++ repeat (fill_of copy l k) (length l - k).
  Proof.
    intros copy l k K A. rewrite <- (firstn_skipn k l) at 1. f_equal.
    rewrite <- (skipn_length k l). apply list_repeat. intros j J. rewrite skipn_length in J. rewrite nth_skipn'.
    unfold fill_of. destruct copy.
    - induction j as [|j IH].
      + rewrite Nat.add_0_r. apply A. lia.
      + rewrite A by lia. replace (k + S j - 1) with (k + j) by lia. apply IH. lia.
    - apply A. lia.
  Qed.

  Lemma last_of_firstn : forall (l : list V) k, 1 <= k <= length l -> exists l', firstn k l = l' ++ [nth (k - 1) l default].
  Proof.
    intros l k. revert l. induction k as [|k IH]; intros l L; [lia|]. destruct l as [|x l]; [cbn in L; lia|].
    destruct k as [|k].
    - exists []. reflexivity.
    - cbn in L. destruct (IH l ltac:(lia)) as (l' & E). exists (x :: l'). cbn [firstn] in *. rewrite E.
      replace (S (S k) - 1) with (S (S k - 1)) by lia. reflexivity.
  Qed.

  Lemma elide_can : forall min_elems copy l, l <> [] ->
    can_elide default min_elems copy l (elide V eqb default (max min_elems 1) copy l (length l)).
  Proof.
    intros m copy l N. assert (Ll : 1 <= length l) by (destruct l; [congruence|cbn; lia]).
    destruct (elide_spec (max m 1) copy l (length l) ltac:(lia) ltac:(lia)) as (A1 & A2 & A3 & _).
    set (k := elide V eqb default (max m 1) copy l (length l)) in *.
    split; [lia|]. split; [lia|].
    exists (firstn k l), (fill_of copy l k), (length l - k). split; [apply elided_repeat; [lia|assumption]|].
    split; [apply firstn_length_le; lia|]. unfold fill_of. destruct copy; [apply last_of_firstn; lia|reflexivity].
  Qed.

  Lemma elide_least : forall min_elems copy l k, can_elide default min_elems copy l k ->
    elide V eqb default (max min_elems 1) copy l (length l) <= k.
  Proof.
    intros m copy l k (K & M & keep & fill & n & E & Lk & F).
    destruct (elide_spec (max m 1) copy l (length l) ltac:(lia) ltac:(lia)) as (A1 & A2 & _ & A4).
    set (e := elide V eqb default (max m 1) copy l (length l)) in *.
    destruct (Nat.le_gt_cases e k) as [|G]; [assumption|exfalso].
    assert (Ln : length l = k + n) by (rewrite E, app_length, repeat_length; lia).
    assert (T : forall j, k <= j < length l -> nth j l default = fill).
    { intros j J. rewrite E, app_nth2 by lia. apply nth_repeat'. lia. }
    apply A4; [lia|]. rewrite T by lia. destruct copy; [|congruence].
    destruct (Nat.eq_dec (e - 1) k) as [Q|Q]; [|symmetry; apply T; lia].
    destruct F as (keep' & ->). rewrite E, Q. rewrite app_length in Lk. cbn in Lk.
    rewrite app_nth1 by (rewrite app_length; cbn; lia). rewrite app_nth2 by lia. replace (k - 1 - length keep') with 0 by lia. reflexivity.
  Qed.
End P.
