(* Proofs about the extraction of tokens *)
From Coq Require Import List Arith Bool Lia.
From Verif Require Import CliPatternModel CliSpecModel CliRecorderModel CliRecorderSpec CliParserModel CliParserSpec ArrLib.
Import ListNotations.

Section Lexer.
  Variable alnum : nat -> bool.
  Variable narrow : nat -> nat.
  Variable code : spec_code.
  Notation word_char := (word_char alnum).
  Notation word_ends := (word_ends alnum).
  Notation extract_again := (extract_again alnum narrow code).

  Lemma between_app x s : between (x ++ s) s = x.
  Proof. unfold between. rewrite app_length. replace (length x + length s - length s) with (length x) by lia.
    rewrite firstn_app, firstn_all, Nat.sub_diag. cbn. apply app_nil_r.
  Qed.

  Lemma between_eq curr x s : curr = x ++ s -> between curr s = x.
  Proof. intros ->. apply between_app. Qed.

  Lemma scan_not_spec s : exists x, s = x ++ scan_not alnum s /\ forallb alnum x = true /\
    match scan_not alnum s with c :: _ => alnum c = false | [] => True end.
  Proof.
    induction s as [|c s IH]; cbn.
    - now exists [].
    - destruct (alnum c) eqn:E.
      + destruct IH as (x & E1 & E2 & E3). exists (c :: x). cbn. rewrite E. cbn. split; [now f_equal|easy].
      + exists []. easy.
  Qed.

  Lemma alnum_words x : forallb alnum x = true -> forallb word_char x = true.
  Proof. rewrite !forallb_forall. intros H c Hc. unfold CliParserSpec.word_char. now rewrite H. Qed.

  Lemma keyword_loop_spec f : forall s, length s < f -> exists x r, keyword_loop alnum f s = POk r /\ s = x ++ r /\
    forallb word_char x = true /\ word_ends r.
  Proof.
    induction f; intros s Hs; [lia|]. cbn. destruct (scan_not_spec s) as (x & E1 & E2 & E3). apply alnum_words in E2.
    destruct (scan_not alnum s) as [|c j] eqn:E.
    - exists x, []. easy.
    - destruct (c =? ch_dash) eqn:Ec.
      + destruct (IHf j) as (y & r & A & B & C & D).
        { rewrite E1, app_length in Hs. cbn in Hs. lia. }
        exists (x ++ c :: y), r. split; [easy|]. rewrite <- app_assoc. cbn. rewrite E1. split; [now rewrite <- B|]. split; [|easy].
        rewrite forallb_app. cbn. rewrite E2, C. unfold CliParserSpec.word_char. now rewrite Ec, orb_true_r.
      + exists x, (c :: j). split; [easy|]. split; [easy|]. split; [easy|]. cbn. unfold CliParserSpec.word_char. now rewrite E3, Ec.
  Qed.

  Lemma long_loop_spec f : forall c s, length s < f -> exists x r, long_loop alnum f (c :: s) = POk r /\ s = x ++ r /\
    forallb word_char x = true /\ word_ends r.
  Proof.
    induction f; intros c s Hs; [lia|]. cbn. destruct (scan_not_spec s) as (x & E1 & E2 & E3). apply alnum_words in E2.
    destruct (scan_not alnum s) as [|d j] eqn:E; cbn.
    - exists x, []. easy.
    - destruct (d =? ch_dash) eqn:Ec.
      + destruct (IHf d j) as (y & r & A & B & C & D).
        { rewrite E1, app_length in Hs. cbn in Hs. lia. }
        exists (x ++ d :: y), r. split; [easy|]. rewrite <- app_assoc. cbn. rewrite E1. split; [now rewrite <- B|]. split; [|easy].
        rewrite forallb_app. cbn. rewrite E2, C. unfold CliParserSpec.word_char. now rewrite Ec, orb_true_r.
      + exists x, (d :: j). split; [easy|]. split; [easy|]. split; [easy|]. cbn. unfold CliParserSpec.word_char. now rewrite E3, Ec.
  Qed.

  Lemma word_unique x : forall y r s, x ++ r = y ++ s -> forallb word_char x = true -> forallb word_char y = true -> word_ends r -> word_ends s ->
    x = y /\ r = s.
  Proof.
    induction x as [|a x IH]; intros [|b y] r s E A B C D; cbn in *.
    - easy.
    - subst r. cbn in C. rewrite C in B. easy.
    - subst s. cbn in D. rewrite D in A. easy.
    - injection E as -> E. apply andb_prop in A, B. destruct (IH y r s) as (-> & ->); easy.
  Qed.

  Lemma find_greater_spec s : match find_greater s with
    | [] => ~ In ch_greater_than s
    | c :: r => c = ch_greater_than /\ exists x, s = x ++ c :: r /\ ~ In ch_greater_than x
    end.
  Proof.
    induction s as [|c s IH]; cbn [find_greater]; [easy|]. destruct (Nat.eqb_spec c ch_greater_than) as [->|N].
    - split; [easy|]. now exists [].
    - destruct (find_greater s) as [|d r].
      + intros [H|H]; easy.
      + destruct IH as (-> & x & -> & Hx). split; [easy|]. exists (c :: x). split; [easy|]. intros [H|H]; easy.
  Qed.

  Lemma find_greater_app x s : ~ In ch_greater_than x -> find_greater (x ++ ch_greater_than :: s) = ch_greater_than :: s.
  Proof.
    induction x as [|c x IH]; intros H; cbn [find_greater app]; [easy|].
    destruct (Nat.eqb_spec c ch_greater_than) as [->|N]; [destruct H; now left|]. apply IH. intros Hx. apply H. now right.
  Qed.

  Lemma skip_spaces_spec s : exists n, s = repeat ch_space n ++ skip_spaces s /\ at_char ch_space (skip_spaces s) = false.
  Proof.
    induction s as [|c s (n & E & F)]; cbn [skip_spaces]; [now exists 0|]. destruct (Nat.eqb_spec c ch_space) as [->|N].
    - exists (S n). cbn. split; [now f_equal|easy].
    - exists 0. cbn. split; [easy|]. now apply Nat.eqb_neq.
  Qed.
  Lemma skip_spaces_app n s : at_char ch_space s = false -> skip_spaces (repeat ch_space n ++ s) = s.
  Proof. intros H. induction n; cbn; [|easy]. destruct s; cbn in *; [easy|]. now rewrite H. Qed.

  Variable Lok : locale_ok alnum narrow.

  Lemma narrow_is c k : In k specials -> (narrow c =? k) = (c =? k).
  Proof.
    intros H. destruct (proj1 Lok c k H) as [A B]. destruct (Nat.eqb_spec (narrow c) k), (Nat.eqb_spec c k); try easy; exfalso; auto.
  Qed.

  (* the function, with comparisons of the character itself *)
  Lemma extract_eq f curr b : extract_again (S f) curr b =
    let good type i := POk (Token type (between curr i) b, i) in
    match curr with
    | [] => good t_end_of_input []
    | c :: i =>
      let word :=
        if (c =? ch_dash) || alnum (narrow c) then
          let* i := keyword_loop alnum (S (length i)) i in good t_keyword i
        else parse_error code invalid_token in
      if c =? ch_space then extract_again f (skip_spaces i) true
      else if c =? ch_dash then
        match i with
        | [] => word
        | x :: j =>
          if x =? ch_dash then let* i := long_loop alnum (length i) i in good t_long_option i
          else if negb (x =? ch_space) then good t_short_option j
          else word
        end
      else if c =? ch_less_than then
        match find_greater i with
        | [] => parse_error code missing_closing
        | _ :: i => good t_value_slot i
        end
      else if c =? ch_left_parenthesis then good t_left_parenthesis i
      else if c =? ch_right_parenthesis then good t_right_parenthesis i
      else if c =? ch_left_sq_bracket then good t_left_sq_bracket i
      else if c =? ch_right_sq_bracket then good t_right_sq_bracket i
      else if c =? ch_dot then
        match i with
        | x :: y :: i => if (x =? ch_dot) && (y =? ch_dot) then good t_ellipsis i else parse_error code invalid_token
        | _ => parse_error code invalid_token
        end
      else if c =? ch_vertical_bar then good t_vertical_bar i
      else if c =? ch_comma then good t_comma i
      else word
    end.
  Proof.
    cbn [CliParserModel.extract_again]. destruct curr as [|c i]; [easy|]. cbv zeta.
    rewrite !narrow_is by (cbn; tauto). easy.
  Qed.

  Lemma extract_good f ty x s b : lexeme_of alnum narrow ty x s -> extract_again (S f) (x ++ s) b = POk (Token ty x b, s).
  Proof.
    intros H. rewrite extract_eq. cbv zeta. destruct H; cbn [app].
    - assert (F : forall k, In k specials -> (c =? k) = false) by (intros k Hk; apply Nat.eqb_neq; now intros ->).
      rewrite !F by (cbn; tauto). rewrite H0. cbn [orb].
      destruct (keyword_loop_spec (S (length (x ++ s))) (x ++ s)) as (y & r & A & B & C & D); [lia|].
      rewrite A. cbn [pbind]. destruct (word_unique _ _ _ _ B) as (<- & <-); auto. now rewrite (between_eq _ (c :: x) s) by reflexivity.
    - easy.
    - change (ch_dash =? ch_space) with false. change (ch_dash =? ch_dash) with true. change (ch_space =? ch_dash) with false.
      change (ch_space =? ch_space) with true. cbn [negb orb]. cbn [keyword_loop scan_not length]. rewrite (proj2 Lok).
      cbn [Nat.eqb ch_space ch_dash pbind]. now rewrite (between_eq _ [45] (32 :: s)) by reflexivity.
    - change (ch_dash =? ch_space) with false. change (ch_dash =? ch_dash) with true. cbn [length].
      destruct (long_loop_spec (S (length (x ++ s))) ch_dash (x ++ s)) as (y & r & A & B & C & D); [lia|].
      rewrite A. cbn [pbind]. destruct (word_unique _ _ _ _ B) as (<- & <-); auto. now rewrite (between_eq _ (ch_dash :: ch_dash :: x) s) by reflexivity.
    - change (ch_dash =? ch_space) with false. change (ch_dash =? ch_dash) with true. cbv iota.
      apply Nat.eqb_neq in H, H0. rewrite H, H0. cbn [negb]. now rewrite (between_eq _ [ch_dash; c] s) by reflexivity.
    - change (ch_less_than =? ch_space) with false. change (ch_less_than =? ch_dash) with false. change (ch_less_than =? ch_less_than) with true.
      cbv iota. rewrite <- app_assoc. cbn [app]. rewrite find_greater_app by easy.
      replace (ch_less_than :: x ++ ch_greater_than :: s) with ((ch_less_than :: x ++ [ch_greater_than]) ++ s)
        by (cbn; now rewrite <- app_assoc). now rewrite between_app.
    - cbn [Nat.eqb ch_space ch_dash ch_less_than ch_left_parenthesis ch_right_parenthesis ch_left_sq_bracket ch_right_sq_bracket ch_dot ch_vertical_bar ch_comma andb]. now rewrite (between_eq _ [ch_left_parenthesis] s) by reflexivity.
    - cbn [Nat.eqb ch_space ch_dash ch_less_than ch_left_parenthesis ch_right_parenthesis ch_left_sq_bracket ch_right_sq_bracket ch_dot ch_vertical_bar ch_comma andb]. now rewrite (between_eq _ [ch_right_parenthesis] s) by reflexivity.
    - cbn [Nat.eqb ch_space ch_dash ch_less_than ch_left_parenthesis ch_right_parenthesis ch_left_sq_bracket ch_right_sq_bracket ch_dot ch_vertical_bar ch_comma andb]. now rewrite (between_eq _ [ch_left_sq_bracket] s) by reflexivity.
    - cbn [Nat.eqb ch_space ch_dash ch_less_than ch_left_parenthesis ch_right_parenthesis ch_left_sq_bracket ch_right_sq_bracket ch_dot ch_vertical_bar ch_comma andb]. now rewrite (between_eq _ [ch_right_sq_bracket] s) by reflexivity.
    - cbn [Nat.eqb ch_space ch_dash ch_less_than ch_left_parenthesis ch_right_parenthesis ch_left_sq_bracket ch_right_sq_bracket ch_dot ch_vertical_bar ch_comma andb]. now rewrite (between_eq _ [ch_dot; ch_dot; ch_dot] s) by reflexivity.
    - cbn [Nat.eqb ch_space ch_dash ch_less_than ch_left_parenthesis ch_right_parenthesis ch_left_sq_bracket ch_right_sq_bracket ch_dot ch_vertical_bar ch_comma andb]. now rewrite (between_eq _ [ch_vertical_bar] s) by reflexivity.
    - cbn [Nat.eqb ch_space ch_dash ch_less_than ch_left_parenthesis ch_right_parenthesis ch_left_sq_bracket ch_right_sq_bracket ch_dot ch_vertical_bar ch_comma andb]. now rewrite (between_eq _ [ch_comma] s) by reflexivity.
  Qed.

  Lemma lexeme_start ty x s : lexeme_of alnum narrow ty x s -> ty <> t_end_of_input /\ x <> [] /\ at_char ch_space (x ++ s) = false.
  Proof. intros H. destruct H; try easy. split; [easy|]. split; [easy|]. cbn. apply Nat.eqb_neq. intros ->. apply H. now left. Qed.

  (* extraction from a string that does not begin with a space *)
  Lemma extract_from f s b : at_char ch_space s = false ->
    match extract_again (S f) s b with
    | POk (tk, r) => (s = [] /\ r = [] /\ tk = Token t_end_of_input [] b) \/
        exists ty x, s = x ++ r /\ tk = Token ty x b /\ lexeme_of alnum narrow ty x r
    | PErr c _ => c = code
    | PBad => False
    end.
  Proof.
    intros Hs. rewrite extract_eq. cbv zeta. destruct s as [|c i]; [now left|]. cbn [at_char] in Hs. rewrite Hs.
    destruct (Nat.eqb_spec c ch_dash) as [->|N1].
    { cbn [orb]. destruct i as [|x j]; [right; exists t_keyword, [ch_dash]; split; [easy|]; split; [easy|exact (lx_dash_end _ _)]|].
      destruct (Nat.eqb_spec x ch_dash) as [->|N2].
      - destruct (long_loop_spec (length (ch_dash :: j)) ch_dash j) as (y & r & A & -> & C & D); [cbn; lia|].
        rewrite A. cbn [pbind]. right. exists t_long_option, (ch_dash :: ch_dash :: y). split; [easy|].
        rewrite (between_eq _ (ch_dash :: ch_dash :: y) r) by reflexivity. split; [easy|]. now constructor.
      - destruct (Nat.eqb_spec x ch_space) as [->|N3]; cbn [negb].
        + cbn [keyword_loop scan_not length]. rewrite (proj2 Lok). cbn [Nat.eqb ch_space ch_dash pbind]. right.
          exists t_keyword, [ch_dash]. split; [easy|]. rewrite (between_eq _ [45] (32 :: j)) by reflexivity. split; [easy|apply lx_dash].
        + right. exists t_short_option, [ch_dash; x]. split; [easy|]. rewrite (between_eq _ [ch_dash; x] j) by reflexivity. split; [easy|]. now constructor. }
    destruct (Nat.eqb_spec c ch_less_than) as [->|N2].
    { pose proof (find_greater_spec i) as F. destruct (find_greater i) as [|d r]; [easy|]. destruct F as (-> & x & -> & Hx). right.
      exists t_value_slot, (ch_less_than :: x ++ [ch_greater_than]). cbn [app]. rewrite <- app_assoc. split; [easy|].
      replace (ch_less_than :: x ++ ch_greater_than :: r) with ((ch_less_than :: x ++ [ch_greater_than]) ++ r)
        by (cbn; now rewrite <- app_assoc). rewrite between_app. split; [easy|]. now constructor. }
    Local Ltac one ty c i := right; exists ty, [c]; split; [easy|]; rewrite (between_eq _ [c] i) by reflexivity; split; [easy|]; constructor.
    destruct (Nat.eqb_spec c ch_left_parenthesis) as [->|N3]; [one t_left_parenthesis ch_left_parenthesis i|].
    destruct (Nat.eqb_spec c ch_right_parenthesis) as [->|N4]; [one t_right_parenthesis ch_right_parenthesis i|].
    destruct (Nat.eqb_spec c ch_left_sq_bracket) as [->|N5]; [one t_left_sq_bracket ch_left_sq_bracket i|].
    destruct (Nat.eqb_spec c ch_right_sq_bracket) as [->|N6]; [one t_right_sq_bracket ch_right_sq_bracket i|].
    destruct (Nat.eqb_spec c ch_dot) as [->|N7].
    { destruct i as [|x [|y r]]; try easy. destruct (Nat.eqb_spec x ch_dot) as [->|M]; [|easy].
      destruct (Nat.eqb_spec y ch_dot) as [->|M]; [|easy]. cbn [andb]. right. exists t_ellipsis, [ch_dot; ch_dot; ch_dot].
      split; [easy|]. rewrite (between_eq _ [ch_dot; ch_dot; ch_dot] r) by reflexivity. split; [easy|constructor]. }
    destruct (Nat.eqb_spec c ch_vertical_bar) as [->|N8]; [one t_vertical_bar ch_vertical_bar i|].
    destruct (Nat.eqb_spec c ch_comma) as [->|N9]; [one t_comma ch_comma i|].
    cbn [orb]. destruct (alnum (narrow c)) eqn:Ea; [|easy].
    destruct (keyword_loop_spec (S (length i)) i) as (y & r & A & -> & C & D); [lia|].
    rewrite A. cbn [pbind]. right. exists t_keyword, (c :: y). split; [easy|]. rewrite (between_eq _ (c :: y) r) by reflexivity. split; [easy|].
    constructor; auto. cbn. intros H. apply Nat.eqb_neq in Hs. repeat (destruct H as [H|H]; [now subst c|]). easy.
  Qed.

  Definition next_token (s : text) := extract_again (S (length s)) s false.

  Lemma next_spaces n s : at_char ch_space s = false -> next_token (repeat ch_space n ++ s) = extract_again (S (length s)) s (0 <? n) \/
    exists f, next_token (repeat ch_space n ++ s) = extract_again (S f) s (0 <? n).
  Proof.
    intros Hs. destruct n as [|n]; [now left|]. right. unfold next_token. cbn [repeat app]. rewrite extract_eq. cbv zeta.
    change (ch_space =? ch_space) with true. cbv iota. rewrite skip_spaces_app by easy. cbn [length]. now eexists.
  Qed.

  Lemma split_spaces s : exists n r, s = repeat ch_space n ++ r /\ at_char ch_space r = false.
  Proof. destruct (skip_spaces_spec s) as (n & E & F). now exists n, (skip_spaces s). Qed.

  (* the function yields the next token, and what follows it *)
  Theorem next_token_result s :
    match next_token s with
    | POk (tk, r) =>
      (tk_type tk = t_end_of_input /\ r = [] /\ exists n, s = repeat ch_space n) \/
      (exists n ty x, s = repeat ch_space n ++ x ++ r /\ tk = Token ty x (0 <? n) /\ lexeme_of alnum narrow ty x r)
    | PErr c _ => c = code
    | PBad => False
    end.
  Proof.
    destruct (split_spaces s) as (n & r & -> & Hr).
    assert (E : exists f, next_token (repeat ch_space n ++ r) = extract_again (S f) r (0 <? n)).
    { destruct (next_spaces n r Hr) as [E|E]; [exists (length r); exact E|easy]. }
    destruct E as (f & ->). pose proof (extract_from f r (0 <? n) Hr) as H. destruct (extract_again (S f) r (0 <? n)) as [[tk q]|c m|]; try easy.
    destruct H as [(-> & -> & ->)|(ty & x & -> & -> & H)].
    - left. split; [easy|]. split; [easy|]. exists n. apply app_nil_r.
    - right. now exists n, ty, x.
  Qed.

  Theorem next_token_good n ty x s : lexeme_of alnum narrow ty x s -> next_token (repeat ch_space n ++ x ++ s) = POk (Token ty x (0 <? n), s).
  Proof.
    intros H. pose proof (lexeme_start _ _ _ H) as (_ & _ & Hs). destruct (next_spaces n (x ++ s) Hs) as [->|(f & ->)]; now apply extract_good.
  Qed.

  Theorem next_token_end n : next_token (repeat ch_space n) = POk (Token t_end_of_input [] (0 <? n), []).
  Proof.
    pose proof (next_spaces n [] eq_refl) as H. rewrite app_nil_r in H. destruct H as [->|(f & ->)]; now rewrite extract_eq.
  Qed.
End Lexer.
