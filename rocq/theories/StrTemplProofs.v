(* Lemmas about string templates. *)
From Coq Require Import List Arith Lia Bool.
From Verif Require Import StrTemplModel StrTemplSpec ArrLib.
Import ListNotations.

Ltac slia := unfold str in *; lia.

Lemma str_eqb_eq a b : str_eqb a b = true <-> a = b.
Proof. unfold str_eqb. destruct (list_eq_dec Nat.eq_dec a b); split; congruence. Qed.

Lemma find_in_exact ch s : forall k,
  match find_in ch s k with
  | Some j => exists a b, s = a ++ ch :: b /\ ~ In ch a /\ j = k + length a
  | None => ~ In ch s
  end.
Proof.
  induction s as [|c s IH]; intros k; cbn; [tauto|].
  destruct (c =? ch) eqn:E.
  - apply Nat.eqb_eq in E as ->. exists [], s. cbn. split; [reflexivity|]. split; [tauto|lia].
  - apply Nat.eqb_neq in E. specialize (IH (S k)). destruct (find_in ch s (S k)) as [j|].
    + destruct IH as (a & b & -> & N & ->). exists (c :: a), b. split; [reflexivity|]. split; [intros [X|X]; [congruence|contradiction]|cbn; lia].
    + intros [X|X]; [congruence|contradiction].
Qed.

Lemma skipn_app_length {T} (pre suf : list T) : skipn (length pre) (pre ++ suf) = suf.
Proof. rewrite skipn_app, skipn_all, Nat.sub_diag. reflexivity. Qed.
Lemma firstn_app_length {T} (pre suf : list T) : firstn (length pre) (pre ++ suf) = pre.
Proof. rewrite firstn_app, firstn_all, Nat.sub_diag. cbn. apply app_nil_r. Qed.

(* finding a character after a prefix *)
Lemma find_exact ch pre suf :
  match find ch (pre ++ suf) (length pre) with
  | Some j => exists a b, suf = a ++ ch :: b /\ ~ In ch a /\ j = length (pre ++ a)
  | None => ~ In ch suf
  end.
Proof.
  unfold find. rewrite skipn_app_length. pose proof (find_in_exact ch suf (length pre)) as F. destruct (find_in ch suf (length pre)) as [j|]; [|exact F].
  destruct F as (a & b & -> & N & ->). exists a, b. rewrite app_length. auto.
Qed.

Lemma substr_exact pre mid suf : substr (pre ++ mid ++ suf) (length pre) (length mid) = Some mid.
Proof.
  unfold substr. replace (length pre <=? length (pre ++ mid ++ suf)) with true by (symmetry; apply Nat.leb_le; rewrite app_length; lia).
  rewrite skipn_app_length. now rewrite firstn_app_length.
Qed.

Section Proofs.
  Variable A : Type.
  Notation part := (part A). Notation param := (param A). Notation params := (params A). Notation subst := (subst A).

  Lemma lookup_exact (ps : params) name : NoDup (map fst ps) -> forall p, lookup A ps name = Some p <-> In p ps /\ fst p = name.
  Proof.
    induction ps as [|q ps IH]; cbn; intros N p; [split; [discriminate|tauto]|]. inversion N as [|x l Nq Np]; subst.
    destruct (str_eqb (fst q) name) eqn:E.
    - apply str_eqb_eq in E. split; [intros [= <-]; auto|]. intros [[-> | H] Hp]; [reflexivity|]. destruct Nq. rewrite E, <- Hp. now apply in_map.
    - rewrite IH by assumption. split; [tauto|]. intros [[-> | H] Hp]; [|auto]. apply str_eqb_eq in Hp. congruence.
  Qed.

  Section Parse.
    Variable narrow : nat -> nat.
    Variable ps : params.
    Variable handler : list terror -> terror -> bool.
    Hypothesis names : NoDup (map fst ps).
    Definition defined (name : str) (p : param) : Prop := In p ps /\ fst p = name.
    Notation parts := (parts A narrow defined).

    Lemma lookup_none name : lookup A ps (map narrow name) = None -> ~ is_defined A narrow defined name.
    Proof. intros E (p & H). apply lookup_exact in H; [congruence|assumption]. Qed.
    Lemma lookup_some name p : lookup A ps (map narrow name) = Some p -> defined (map narrow name) p.
    Proof. intros E. now apply lookup_exact. Qed.

    Lemma parts_text t s l : ~ In 64 t -> forall i, parts (length t + i) s l -> parts i (t ++ s) (map (Text A) t ++ l).
    Proof.
      induction t as [|c t IH]; intros N i P; cbn; [exact P|]. constructor; [intros ->; apply N; now left|]. apply IH; [intros X; apply N; now right|].
      replace (length t + S i) with (length (c :: t) + i) by (cbn; lia). exact P.
    Qed.
    Lemma wrongs_text t (l : list part) : wrongs A (map (Text A) t ++ l) = wrongs A l.
    Proof. induction t; cbn; auto. Qed.
    Lemma written_text args flags t (l : list part) : written A args flags (map (Text A) t ++ l) = let (w, b) := written A args flags l in (t ++ w, b).
    Proof. induction t as [|c t IH]; cbn; [now destruct (written A args flags l)|]. rewrite IH. now destruct (written A args flags l). Qed.

    (* what is to be shown of the substitutions from curr on, given the parts from there on *)
    Definition expands (pre suf : str) (more : list subst) (l : list part) : Prop :=
      (forall args flags i out, i <= length pre ->
        let (w, b) := written A args flags l in
        exists cur, expand_loop A args flags (pre ++ suf) more i out flags = Some (out ++ skipn i pre ++ w, cur, b) /\ (b = false -> cur = flags)) /\
      (forall name, refers_in A more name = true <-> exists p, In (Value A p) l /\ fst p = name).

    Definition outcome_ok (pre suf : str) (substs : list subst) (errors : list terror) (l : list part) (r : parsed A) : Prop :=
      match r with
      | Aborted _ errs => exists a e b, wrongs A l = a ++ e :: b /\ errs = errors ++ a ++ [e] /\
          (forall x y z, a = x ++ y :: z -> handler (errors ++ x) y = true) /\ handler (errors ++ a) e = false
      | Parsed _ t errs => exists more, t = Templ A (pre ++ suf) (substs ++ more) /\ errs = errors ++ wrongs A l /\
          (forall x y z, wrongs A l = x ++ y :: z -> handler (errors ++ x) y = true) /\ expands pre suf more l
      end.

    Lemma expands_end pre suf : ~ In 64 suf -> expands pre suf [] (map (Text A) suf).
    Proof.
      intros N. split.
      - intros args flags i out Hi. rewrite <- (app_nil_r (map _ suf)), written_text. cbn. exists flags. split; [|reflexivity].
        unfold substr. replace (i <=? length (pre ++ suf)) with true by (symmetry; apply Nat.leb_le; rewrite app_length; lia). cbn.
        rewrite firstn_all2 by (rewrite skipn_length; lia). rewrite skipn_app. replace (i - length pre) with 0 by lia. cbn. now rewrite app_nil_r.
      - intros name. cbn. split; [discriminate|]. intros (p & H & _). apply in_map_iff in H as (c & E & _). discriminate.
    Qed.

    (* text up to something that is wrong *)
    Lemma expands_wrong pre t w suf e more l : expands (pre ++ t ++ w) suf more l ->
      expands pre (t ++ w ++ suf) more (map (Text A) t ++ Wrong A e w :: l).
    Proof.
      intros [E R]. split.
      - intros args flags i out Hi. rewrite written_text. cbn. specialize (E args flags i out ltac:(rewrite app_length; slia)).
        destruct (written A args flags l) as [v b]. destruct E as (cur & E & F). exists cur. split; [|exact F].
        replace (pre ++ t ++ w ++ suf) with ((pre ++ t ++ w) ++ suf) by now rewrite <- !app_assoc. rewrite E. do 3 f_equal. f_equal.
        rewrite skipn_app. replace (i - length pre) with 0 by slia. cbn. now rewrite <- !app_assoc.
      - intros name. rewrite R. split; intros (p & H & Hp); exists p; (split; [|exact Hp]).
        + apply in_or_app. right. now right.
        + apply in_app_or in H as [H|[H|H]]; [apply in_map_iff in H as (c & X & _); discriminate|discriminate|exact H].
    Qed.

    (* text up to something that is substituted *)
    Lemma expands_subst pre t r suf q more l x : expands (pre ++ t ++ r) suf more l ->
      match q with Some p => x = Value A p | None => x = At A end ->
      expands pre (t ++ r ++ suf) (Subst A (length (pre ++ t)) (length (pre ++ t ++ r)) q :: more) (map (Text A) t ++ x :: l).
    Proof.
      intros [E R] Hx. split.
      - intros args flags i out Hi. rewrite written_text. cbn [expand_loop sb_begin sb_end sb_param].
        assert (S1 : substr (pre ++ t ++ r ++ suf) i (length (pre ++ t) - i) = Some (skipn i pre ++ t)).
        { unfold substr. replace (i <=? length (pre ++ t ++ r ++ suf)) with true by (symmetry; apply Nat.leb_le; rewrite !app_length; slia).
          rewrite (skipn_app i pre). replace (i - length pre) with 0 by slia. cbn [skipn]. f_equal.
          replace (skipn i pre ++ t ++ r ++ suf) with ((skipn i pre ++ t) ++ r ++ suf) by now rewrite <- app_assoc.
          replace (length (pre ++ t) - i) with (length (skipn i pre ++ t)) by (rewrite !app_length, skipn_length; slia). apply firstn_app_length. }
        rewrite S1. cbn [obind]. replace (pre ++ t ++ r ++ suf) with ((pre ++ t ++ r) ++ suf) by now rewrite <- !app_assoc.
        destruct q as [p|]; subst x; cbn [written].
        + destruct (snd p args flags) as [[v cur0] [|]]; [exists cur0; split; [now rewrite <- !app_assoc|discriminate]|].
          specialize (E args flags (length (pre ++ t ++ r)) ((out ++ skipn i pre ++ t) ++ v) ltac:(lia)).
          destruct (written A args flags l) as [w b]. destruct E as (cur & E & F). exists cur. split; [|exact F]. rewrite E. do 3 f_equal.
          rewrite skipn_all. cbn. now rewrite <- !app_assoc.
        + specialize (E args flags (length (pre ++ t ++ r)) ((out ++ skipn i pre ++ t) ++ [lead_char]) ltac:(lia)).
          destruct (written A args flags l) as [w b]. destruct E as (cur & E & F). exists cur. split; [|exact F]. rewrite E. do 3 f_equal.
          rewrite skipn_all. cbn. now rewrite <- !app_assoc.
      - intros name. cbn [refers_in sb_param]. destruct q as [p|]; subst x.
        + destruct (negb (str_eqb name (fst p))) eqn:N.
          * rewrite R. split; intros (p' & H & Hp); exists p'; (split; [|exact Hp]).
            -- apply in_or_app. right. now right.
            -- apply in_app_or in H as [H|[H|H]]; [apply in_map_iff in H as (c & X & _); discriminate| |exact H]. injection H as ->. apply negb_true_iff in N. symmetry in Hp. apply str_eqb_eq in Hp. congruence.
          * split; [|reflexivity]. intros _. exists p. split; [apply in_or_app; right; now left|]. apply negb_false_iff, str_eqb_eq in N. congruence.
        + rewrite R. split; intros (p' & H & Hp); exists p'; (split; [|exact Hp]).
          * apply in_or_app. right. now right.
          * apply in_app_or in H as [H|[H|H]]; [apply in_map_iff in H as (c & X & _); discriminate|discriminate|exact H].
    Qed.

    (* going on after an error *)
    Lemma after_error pre t w suf substs errors l e r : handler errors e = true ->
      outcome_ok (pre ++ t ++ w) suf substs (errors ++ [e]) l r ->
      outcome_ok pre (t ++ w ++ suf) substs errors (map (Text A) t ++ Wrong A e w :: l) r.
    Proof.
      intros H. unfold outcome_ok. rewrite wrongs_text. cbn [wrongs flat_map app]. fold (wrongs A l). destruct r as [errs|tm errs].
      - intros (a & e' & b & W & -> & G & F). exists (e :: a), e', b. rewrite W. split; [reflexivity|]. split; [now rewrite <- app_assoc|]. rewrite <- app_assoc in F. split; [|exact F].
        intros [|x0 x] y z; cbn; intros [= <- E]; [now rewrite app_nil_r|]. specialize (G x y z E). now rewrite <- app_assoc in G.
      - intros (more & -> & -> & G & X). exists more. split; [now rewrite <- !app_assoc|]. split; [now rewrite <- app_assoc|]. split; [|now apply expands_wrong].
        intros [|x0 x] y z; cbn; intros [= <- E]; [now rewrite app_nil_r|]. specialize (G x y z E). now rewrite <- app_assoc in G.
    Qed.
    Lemma at_error pre suf substs errors t e w l : handler errors e = false ->
      outcome_ok pre suf substs errors (map (Text A) t ++ Wrong A e w :: l) (Aborted A (errors ++ [e])).
    Proof.
      intros H. unfold outcome_ok. rewrite wrongs_text. cbn [wrongs flat_map app]. exists [], e, (wrongs A l). cbn. rewrite app_nil_r. repeat split; auto. now intros [|? ?].
    Qed.
    Lemma after_subst pre t r suf q substs errors l x res : match q with Some p => x = Value A p | None => x = At A end ->
      outcome_ok (pre ++ t ++ r) suf (substs ++ [Subst A (length (pre ++ t)) (length (pre ++ t ++ r)) q]) errors l res ->
      outcome_ok pre (t ++ r ++ suf) substs errors (map (Text A) t ++ x :: l) res.
    Proof.
      intros Hx. unfold outcome_ok. rewrite wrongs_text. assert (W : wrongs A (x :: l) = wrongs A l) by (destruct q; subst x; reflexivity). rewrite W.
      destruct res as [errs|tm errs]; [auto|]. intros (more & -> & -> & G & X). eexists. split; [rewrite <- !app_assoc; cbn; reflexivity|]. split; [reflexivity|]. split; [exact G|].
      now apply expands_subst.
    Qed.

    (* there are parts whatever the string *)
    Lemma parts_exist : forall n s i, length s < n -> exists l, parts i s l.
    Proof.
      induction n as [|n IH]; intros s i Hn; [lia|]. destruct s as [|c s]; [exists []; constructor|]. cbn in Hn.
      destruct (Nat.eq_dec c 64) as [-> |Nc].
      2: { destruct (IH s (S i) ltac:(lia)) as (l & P). eexists. eapply p_text; eassumption. }
      destruct s as [|c s]; [eexists; apply p_end|]. cbn in Hn.
      destruct (Nat.eq_dec c 64) as [-> |Nl]; [destruct (IH s (2 + i) ltac:(lia)) as (l & P); eexists; eapply p_at; eassumption|].
      destruct (Nat.eq_dec c 123) as [-> |No].
      - pose proof (find_in_exact 125 s 0) as F. destruct (find_in 125 s 0) as [j|].
        + destruct F as (a & b & -> & N & _). rewrite app_length in Hn. cbn in Hn. destruct (IH b (3 + length a + i) ltac:(lia)) as (l & P).
          destruct (lookup A ps (map narrow a)) as [p|] eqn:E; [apply lookup_some in E|apply lookup_none in E]; eexists; [eapply p_long|eapply p_long_undefined]; eassumption.
        + destruct (IH s (2 + i) ltac:(lia)) as (l & P). eexists. eapply p_unterminated; eassumption.
      - destruct (IH s (2 + i) ltac:(lia)) as (l & P).
        destruct (lookup A ps (map narrow [c])) as [p|] eqn:E; [apply lookup_some in E|apply lookup_none in E]; eexists; [eapply p_short|eapply p_short_undefined]; eassumption.
    Qed.

    (* one round of the loop *)
    Definition go_error string fuel substs errors (e : terror) (curr : nat) : option (parsed A) :=
      if handler errors e then parse_loop A narrow ps handler string fuel curr substs (errors ++ [e]) else Some (Aborted A (errors ++ [e])).
    Definition go_refer string fuel substs errors (i ch : nat) (name : str) (curr : nat) : option (parsed A) :=
      if negb (ch =? lead_char) then
        match lookup A ps (map narrow name) with
        | None =>
          let? ref := substr string i (curr - i) in
          go_error string fuel substs errors (bad_param_ref, undefined name ref) curr
        | Some p => parse_loop A narrow ps handler string fuel curr (substs ++ [Subst A i curr (Some p)]) errors
        end
      else parse_loop A narrow ps handler string fuel curr (substs ++ [Subst A i curr None]) errors.
    Lemma loop_step string fuel curr substs errors : parse_loop A narrow ps handler string (S fuel) curr substs errors =
      match find lead_char string curr with
      | None => Some (Parsed A (Templ A string substs) errors)
      | Some i =>
        if i + 1 =? length string then go_error string fuel substs errors (bad_syntax, at_end) (i + 1)
        else
          let? ch := nth_error string (i + 1) in
          if ch =? open_char then
            match find close_char string (i + 2) with
            | None => go_error string fuel substs errors (bad_syntax, at_offset i) (i + 2)
            | Some j =>
              let? name := substr string (i + 2) (j - (i + 2)) in
              go_refer string fuel substs errors i ch name (j + 1)
            end
          else
            let? name := substr string (i + 1) 1 in
            go_refer string fuel substs errors i ch name (i + 2)
      end.
    Proof. reflexivity. Qed.

    Lemma loop_exact : forall fuel pre suf substs errors, length suf < fuel ->
      exists l r, parse_loop A narrow ps handler (pre ++ suf) fuel (length pre) substs errors = Some r /\ parts (length pre) suf l /\
        outcome_ok pre suf substs errors l r.
    Proof.
      induction fuel as [|fuel IH]; intros pre suf substs errors Hf; [lia|]. rewrite loop_step.
      pose proof (find_exact lead_char pre suf) as Fl. destruct (find lead_char (pre ++ suf) (length pre)) as [i|].
      2: { exists (map (Text A) suf), (Parsed A (Templ A (pre ++ suf) substs) errors). split; [reflexivity|]. split.
        - pose proof (parts_text suf [] [] Fl (length pre) ltac:(constructor)) as P. now rewrite !app_nil_r in P.
        - exists []. rewrite app_nil_r. split; [reflexivity|]. rewrite <- (app_nil_r (map _ suf)), wrongs_text. cbn. rewrite app_nil_r. split; [reflexivity|].
          split; [now intros [|? ?]|]. rewrite app_nil_r. now apply expands_end. }
      destruct Fl as (t & b & -> & Nt & ->). set (error := go_error (pre ++ t ++ lead_char :: b) fuel substs errors). change lead_char with 64 in *.
      assert (Err : forall e w suf', 64 :: b = w ++ suf' -> w <> [] -> (forall l, parts (length (pre ++ t ++ w)) suf' l -> parts (length pre) (t ++ 64 :: b) (map (Text A) t ++ Wrong A e w :: l)) ->
        exists l r, error e (length (pre ++ t ++ w)) = Some r /\ parts (length pre) (t ++ 64 :: b) l /\ outcome_ok pre (t ++ 64 :: b) substs errors l r).
      { intros e w suf' Eb Nw Hp. subst error. unfold go_error.
        assert (Ls : length suf' < fuel). { rewrite app_length in Hf. apply (f_equal (@length _)) in Eb. rewrite app_length in Eb. destruct w; [contradiction|]. cbn in Eb, Hf. slia. }
        destruct (handler errors e) eqn:Hh.
        - destruct (IH (pre ++ t ++ w) suf' substs (errors ++ [e]) Ls) as (l & r & E & P & O). exists (map (Text A) t ++ Wrong A e w :: l), r.
          split; [|split; [now apply Hp|]].
          + rewrite <- E. f_equal. rewrite Eb. now rewrite <- !app_assoc.
          + rewrite Eb. now apply after_error.
        - destruct (parts_exist (S (length suf')) suf' (length (pre ++ t ++ w)) ltac:(lia)) as (l & P).
          eexists _, _. split; [reflexivity|]. split; [now apply (Hp l)|now apply at_error]. }
      assert (Sub : forall q w suf' x, 64 :: b = w ++ suf' -> w <> [] -> match q with Some p => x = Value A p | None => x = At A end ->
        (forall l, parts (length (pre ++ t ++ w)) suf' l -> parts (length pre) (t ++ 64 :: b) (map (Text A) t ++ x :: l)) ->
        exists l r, parse_loop A narrow ps handler (pre ++ t ++ 64 :: b) fuel (length (pre ++ t ++ w)) (substs ++ [Subst A (length (pre ++ t)) (length (pre ++ t ++ w)) q]) errors = Some r /\
          parts (length pre) (t ++ 64 :: b) l /\ outcome_ok pre (t ++ 64 :: b) substs errors l r).
      { intros q w suf' x Eb Nw Hx Hp.
        assert (Ls : length suf' < fuel). { rewrite app_length in Hf. apply (f_equal (@length _)) in Eb. rewrite app_length in Eb. destruct w; [contradiction|]. cbn in Eb, Hf. slia. }
        destruct (IH (pre ++ t ++ w) suf' (substs ++ [Subst A (length (pre ++ t)) (length (pre ++ t ++ w)) q]) errors Ls) as (l & r & E & P & O).
        exists (map (Text A) t ++ x :: l), r. split; [|split; [now apply Hp|]].
        + rewrite <- E. f_equal. rewrite Eb. now rewrite <- !app_assoc.
        + rewrite Eb. eapply after_subst; eassumption. }
      clear IH.
      assert (Li : length (pre ++ t) = length t + length pre) by (rewrite app_length; lia).
      assert (Lw : forall w, length (pre ++ t ++ w) = length w + (length t + length pre)) by (intros w; rewrite !app_length; lia).
      destruct b as [|ch b].
      { replace (length (pre ++ t) + 1 =? length (pre ++ t ++ [64])) with true by (symmetry; apply Nat.eqb_eq; rewrite !app_length; cbn; lia).
        replace (length (pre ++ t) + 1) with (length (pre ++ t ++ [64])) by (rewrite !app_length; cbn; lia).
        apply (Err _ [64] []); [reflexivity|discriminate|]. intros l P. inversion P; subst. apply parts_text; [exact Nt|constructor]. }
      replace (length (pre ++ t) + 1 =? length (pre ++ t ++ 64 :: ch :: b)) with false by (symmetry; apply Nat.eqb_neq; rewrite !app_length; cbn; lia).
      assert (Ec : nth_error (pre ++ t ++ 64 :: ch :: b) (length (pre ++ t) + 1) = Some ch).
      { rewrite app_assoc, nth_error_app2 by lia. replace (length (pre ++ t) + 1 - length (pre ++ t)) with 1 by lia. reflexivity. }
      rewrite Ec. cbn [obind]. set (refer := go_refer (pre ++ t ++ 64 :: ch :: b) fuel substs errors (length (pre ++ t)) ch).
      assert (Ref : forall name w suf' (undef : ch <> 64 -> w = 64 :: (if ch =? 123 then 123 :: name ++ [125] else [ch])), 64 :: ch :: b = w ++ suf' -> w <> [] ->
        (ch = 64 -> forall l, parts (length (pre ++ t ++ w)) suf' l -> parts (length pre) (t ++ 64 :: ch :: b) (map (Text A) t ++ At A :: l)) ->
        (forall p, ch <> 64 -> defined (map narrow name) p -> forall l, parts (length (pre ++ t ++ w)) suf' l -> parts (length pre) (t ++ 64 :: ch :: b) (map (Text A) t ++ Value A p :: l)) ->
        (ch <> 64 -> ~ is_defined A narrow defined name -> forall l, parts (length (pre ++ t ++ w)) suf' l ->
          parts (length pre) (t ++ 64 :: ch :: b) (map (Text A) t ++ Wrong A (bad_param_ref, undefined name w) w :: l)) ->
        exists l r, refer name (length (pre ++ t ++ w)) = Some r /\ parts (length pre) (t ++ 64 :: ch :: b) l /\ outcome_ok pre (t ++ 64 :: ch :: b) substs errors l r).
      { intros name w suf' _ Eb Nw H1 H2 H3. subst refer. unfold go_refer. fold error. change lead_char with 64. destruct (Nat.eq_dec ch 64) as [E|N].
        - replace (ch =? 64) with true by (symmetry; now apply Nat.eqb_eq). cbn [negb]. apply (Sub None w suf' (At A)); auto.
        - replace (ch =? 64) with false by (symmetry; now apply Nat.eqb_neq). cbn [negb]. destruct (lookup A ps (map narrow name)) as [p|] eqn:El.
          + apply (Sub (Some p) w suf' (Value A p)); auto. apply H2; [exact N|]. now apply lookup_some.
          + assert (X : substr (pre ++ t ++ 64 :: ch :: b) (length (pre ++ t)) (length (pre ++ t ++ w) - length (pre ++ t)) = Some w).
            { rewrite Eb, app_assoc. replace (length (pre ++ t ++ w) - length (pre ++ t)) with (length w) by (rewrite !app_length; lia). apply substr_exact. }
            rewrite X. cbn [obind]. apply (Err _ w suf'); auto. apply H3; [exact N|]. now apply lookup_none. }
      clearbody refer error. change open_char with 123. change close_char with 125. destruct (Nat.eq_dec ch 123) as [-> |No].
      - cbn [Nat.eqb]. replace (123 =? 123) with true by reflexivity.
        assert (E0 : pre ++ t ++ 64 :: 123 :: b = (pre ++ t ++ [64; 123]) ++ b) by now rewrite <- !app_assoc.
        assert (L2 : length (pre ++ t) + 2 = length (pre ++ t ++ [64; 123])) by (rewrite !app_length; cbn; lia).
        rewrite L2. pose proof (find_exact 125 (pre ++ t ++ [64; 123]) b) as Fc. rewrite <- E0 in Fc.
        destruct (find 125 (pre ++ t ++ 64 :: 123 :: b) (length (pre ++ t ++ [64; 123]))) as [j|].
        + destruct Fc as (name & b' & -> & Nn & ->).
          assert (X : substr (pre ++ t ++ 64 :: 123 :: name ++ 125 :: b') (length (pre ++ t ++ [64; 123])) (length ((pre ++ t ++ [64; 123]) ++ name) - length (pre ++ t ++ [64; 123])) = Some name).
          { rewrite E0. replace (length ((pre ++ t ++ [64; 123]) ++ name) - length (pre ++ t ++ [64; 123])) with (length name) by (rewrite (app_length (pre ++ t ++ [64; 123])); lia). apply substr_exact. }
          rewrite X. cbn [obind].
          replace (length ((pre ++ t ++ [64; 123]) ++ name) + 1) with (length (pre ++ t ++ 64 :: 123 :: name ++ [125])) by (rewrite !app_length; cbn; rewrite app_length; cbn; lia).
          assert (Lx : length (pre ++ t ++ 64 :: 123 :: name ++ [125]) = 3 + length name + (length t + length pre)) by (rewrite Lw; cbn; rewrite app_length; cbn; lia).
          apply (Ref name (64 :: 123 :: name ++ [125]) b').
          * reflexivity.
          * cbn. now rewrite <- app_assoc.
          * discriminate.
          * discriminate.
          * intros p _ D l P. rewrite Lx in P. apply parts_text; [exact Nt|]. now apply p_long.
          * intros _ D l P. rewrite Lx in P. apply parts_text; [exact Nt|]. now apply p_long_undefined.
        + rewrite Li in *. assert (L3 : length (pre ++ t ++ [64; 123]) = 2 + (length t + length pre)) by (rewrite Lw; reflexivity).
          apply (Err _ [64; 123] b); [reflexivity|discriminate|]. intros l P. rewrite L3 in P. apply parts_text; [exact Nt|]. now apply p_unterminated.
      - replace (ch =? 123) with false by (symmetry; now apply Nat.eqb_neq).
        assert (X : substr (pre ++ t ++ 64 :: ch :: b) (length (pre ++ t) + 1) 1 = Some [ch]).
        { replace (pre ++ t ++ 64 :: ch :: b) with ((pre ++ t ++ [64]) ++ [ch] ++ b) by now rewrite <- !app_assoc.
          replace (length (pre ++ t) + 1) with (length (pre ++ t ++ [64])) by (rewrite !app_length; cbn; lia). apply substr_exact. }
        rewrite X. cbn [obind]. replace (length (pre ++ t) + 2) with (length (pre ++ t ++ [64; ch])) by (rewrite !app_length; cbn; lia).
        assert (L3 : length (pre ++ t ++ [64; ch]) = 2 + (length t + length pre)) by (rewrite Lw; reflexivity).
        apply (Ref [ch] [64; ch] b).
        + intros _. replace (ch =? 123) with false by (symmetry; now apply Nat.eqb_neq). reflexivity.
        + reflexivity.
        + discriminate.
        + intros -> l P. rewrite L3 in P. apply parts_text; [exact Nt|]. now apply p_at.
        + intros p N D l P. rewrite L3 in P. apply parts_text; [exact Nt|]. now apply p_short.
        + intros N D l P. rewrite L3 in P. apply parts_text; [exact Nt|]. now apply p_short_undefined.
    Qed.

    (* the parts are determined by the string *)
    Lemma split_unique (a a' b b' : str) : ~ In 125 a -> ~ In 125 a' -> a ++ 125 :: b = a' ++ 125 :: b' -> a = a' /\ b = b'.
    Proof.
      revert a'. induction a as [|c a IH]; intros [|c' a'] N N' E; cbn in *.
      - now injection E as ->.
      - injection E as <- _. tauto.
      - injection E as -> _. tauto.
      - injection E as <- E. destruct (IH a' ltac:(tauto) ltac:(tauto) E) as [-> ->]. auto.
    Qed.
    Lemma defined_unique name p q : defined name p -> defined name q -> p = q.
    Proof. intros P Q. apply lookup_exact in P; [|assumption]. apply lookup_exact in Q; [|assumption]. congruence. Qed.
    Ltac same_name := match goal with H : ?a ++ 125 :: _ = ?b ++ 125 :: _, N : ~ In 125 ?a, N' : ~ In 125 ?b |- _ => destruct (split_unique _ _ _ _ N N' H) as [-> ->] end.
    Lemma parts_unique i s l : parts i s l -> forall l', parts i s l' -> l' = l.
    Proof.
      induction 1 as [i|i c s l N P IH|i|i s l P IH|i c s p l N1 N2 D P IH|i c s l N1 N2 D P IH|i name s p l N D P IH|i name s l N D P IH|i s l N P IH]; intros l' P'.
      - now inversion P'.
      - inversion P'; subst; try congruence. f_equal. now apply IH.
      - inversion P' as [|? ? ? ? ? Q|?|?|?|?|?|?|?]; subst; try reflexivity; congruence.
      - inversion P'; subst; try congruence. f_equal. now apply IH.
      - inversion P' as [|? ? ? ? ? Q|?|?|? ? ? ? ? ? ? D'|? ? ? ? ? ? D'|?|?|?]; subst; try congruence.
        + f_equal; [f_equal; eapply defined_unique; eassumption|now apply IH].
        + destruct D'. now exists p.
      - inversion P' as [|? ? ? ? ? Q|?|?|? ? ? ? ? ? ? D'|? ? ? ? ? ? D'|?|?|?]; subst; try congruence.
        + destruct D. now exists p.
        + f_equal. now apply IH.
      - inversion P' as [|? ? ? ? Q|?|?|?|?|? name' ? ? ? N' D' P2 Es|? name' ? ? N' D' P2 Es|? ? ? N']; subst; try congruence.
        + same_name. f_equal; [f_equal; eapply defined_unique; eassumption|now apply IH].
        + same_name. destruct D'. now exists p.
        + destruct N'. apply in_or_app. right. now left.
      - inversion P' as [|? ? ? ? Q|?|?|?|?|? name' ? ? ? N' D' P2 Es|? name' ? ? N' D' P2 Es|? ? ? N']; subst; try congruence.
        + same_name. destruct D. now exists p.
        + same_name. f_equal. now apply IH.
        + destruct N'. apply in_or_app. right. now left.
      - inversion P' as [|? ? ? ? Q|?|?|?|?|? name' ? ? ? N' D' P2|? name' ? ? N' D' P2|? ? ? N']; subst; try congruence.
        + destruct N. apply in_or_app. right. now left.
        + destruct N. apply in_or_app. right. now left.
        + f_equal. now apply IH.
    Qed.
  End Parse.
End Proofs.
