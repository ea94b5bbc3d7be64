(* Theorems about parsing of integers. *)
From Coq Require Import ZArith Bool List Lia ZifyBool.
From Verif Require Import CInt ValParseModel ValParseSpec.
Import ListNotations.
Open Scope Z_scope.

Lemma take_digits_ok : forall str any acc,
  exists ds rest, str = ds ++ rest /\ Forall (fun d => 48 <= d <= 57) ds /\
    match rest with [] => True | c :: _ => ~ (48 <= c <= 57) end /\
    take_digits str any acc =
      (match ds with [] => any | _ => true end, acc * 10 ^ Z.of_nat (length ds) + decimal ds, rest).
Proof.
  induction str as [|c str IH]; intros any acc.
  - exists [], []. repeat split; try constructor. cbn. f_equal. f_equal. lia.
  - cbn [take_digits]. unfold is_digit. destruct ((48 <=? c) && (c <=? 57)) eqn:E.
    + destruct (IH true (10 * acc + (c - 48))) as (ds & rest & -> & F & N & ->).
      exists (c :: ds), rest. split; [reflexivity|]. split; [constructor; [lia|exact F]|]. split; [exact N|].
      f_equal. f_equal; [destruct ds; reflexivity|]. cbn [length decimal]. rewrite Nat2Z.inj_succ, Z.pow_succ_r by lia. ring.
    + exists [], (c :: str). split; [reflexivity|]. split; [constructor|]. split; [lia|].
      cbn [length decimal]. f_equal. f_equal. cbn. lia.
Qed.

Lemma decimal_nonneg ds : Forall (fun d => 48 <= d <= 57) ds -> 0 <= decimal ds.
Proof.
  induction 1 as [|d ds H F IH]; cbn [decimal]; [lia|].
  pose proof (Z.pow_nonneg 10 (Z.of_nat (length ds)) ltac:(lia)). nia.
Qed.

Lemma digits_unique ds rest : Forall (fun d => 48 <= d <= 57) (ds ++ rest) ->
  match rest with [] => True | c :: _ => ~ (48 <= c <= 57) end -> rest = [].
Proof.
  intros F N. apply Forall_app in F. destruct F as (_ & F). destruct rest as [|c rest]; [reflexivity|].
  inversion F; subst. contradiction.
Qed.

(* C131: a string is accepted exactly if it is a numeral for a value of the type, without a
   minus sign if the type is unsigned, and the value is then assigned *)
Theorem parse_integer_exact t string var : ity_ok t ->
  (fst (do_parse t string var) = true <->
    exists sign v, numeral sign string v /\ in_range t v /\ (isigned t = false -> sign <> Some 45)) /\
  (forall sign v, numeral sign string v -> fst (do_parse t string var) = true -> snd (do_parse t string var) = v).
Proof.
  intros Ht.
  assert (Hmin : isigned t = false -> imin t = 0) by (intros U; unfold imin; now rewrite U).
  assert (Hmin' : imin t <= 0 <= imax t).
  { destruct t as [w sg]. cbn. unfold ity_ok in Ht. cbn in Ht. destruct sg; cbn.
    - pose proof (Z.pow_pos_nonneg 2 (w - 1) ltac:(lia) ltac:(lia)). lia.
    - pose proof (Z.pow_pos_nonneg 2 w ltac:(lia) ltac:(lia)). lia. }
  set (P := fun (r : bool * Z) => (fst r = true <->
    exists sign v, numeral sign string v /\ in_range t v /\ (isigned t = false -> sign <> Some 45)) /\
    (forall sign v, numeral sign string v -> fst r = true -> snd r = v)).
  change (P (do_parse t string var)). unfold do_parse.
  (* the general case: neg is the sign, str is what follows it *)
  assert (G : forall (neg : bool) str (sgn : option Z),
    (neg = true -> isigned t = true /\ sgn = Some 45) -> (neg = false -> sgn <> Some 45) ->
    (forall s v, numeral s string v -> s = sgn /\ str <> [] /\ Forall (fun d => 48 <= d <= 57) str /\ v = (if neg then - decimal str else decimal str)) ->
    (str <> [] -> Forall (fun d => 48 <= d <= 57) str -> numeral sgn string (if neg then - decimal str else decimal str)) ->
    P (let '(var0, fail, rest) :=
         (let '(any, v, rest) := take_digits str false 0 in
          if any then
            if isigned t then
              let v := if neg then - v else v in
              if v <? imin t then (imin t, true, rest)
              else if imax t <? v then (imax t, true, rest)
              else (v, false, rest)
            else
              if imax t <? v then (imax t, true, rest)
              else ((if neg then wrap t (- v) else v), false, rest)
          else (0, true, rest)) in
       (negb fail && match rest with [] => true | _ => false end, var0))).
  { intros neg str sgn Hn Hp H1 H2.
    destruct (take_digits_ok str false 0) as (ds & rest & Es & F & N & ->).
    rewrite Z.mul_0_l, Z.add_0_l.
    pose proof (decimal_nonneg ds F) as Dn.
    assert (K : forall s v, numeral s string v -> rest = [] /\ str = ds /\ ds <> []).
    { intros s v Hv. destruct (H1 s v Hv) as (_ & Ne & Fs & _). rewrite Es in Fs. pose proof (digits_unique _ _ Fs N). subst rest.
      rewrite app_nil_r in Es. subst. now repeat split. }
    destruct ds as [|d ds].
    - cbn [negb andb fst snd]. split; [|discriminate]. split; [discriminate|].
      intros (s & v & Hv & _). destruct (K s v Hv) as (_ & _ & X). congruence.
    - set (D := decimal (d :: ds)) in *.
      assert (V : forall s v, numeral s string v -> v = if neg then - D else D).
      { intros s v Hv. destruct (K s v Hv) as (_ & -> & _). exact (proj2 (proj2 (proj2 (H1 s v Hv)))). }
      assert (X : rest = [] -> numeral sgn string (if neg then - D else D)).
      { intros ->. rewrite app_nil_r in Es. subst str. apply H2; [discriminate|exact F]. }
      assert (W : forall fail x, (fail = false <-> in_range t (if neg then - D else D)) ->
        (fail = false -> x = if neg then - D else D) ->
        P (negb fail && match rest with [] => true | _ => false end, x)).
      { intros fail x Hf Hx. unfold P. cbn [fst snd]. split.
        - split.
          + intros T. apply andb_prop in T. destruct T as (T1 & T2). destruct rest; [|discriminate].
            exists sgn, (if neg then - D else D). split; [now apply X|]. split; [apply Hf; now destruct fail|].
            intros U. destruct neg; [destruct (Hn eq_refl); congruence|now apply Hp].
          + intros (s & v & Hv & R & _). destruct (K s v Hv) as (-> & _). rewrite (V s v Hv) in R.
            apply Hf in R. now rewrite R.
        - intros s v Hv T. apply andb_prop in T. destruct T as (T1 & _). rewrite (V s v Hv). apply Hx. now destruct fail. }
      unfold in_range in W. destruct (isigned t) eqn:Sg.
      + cbn zeta. destruct (Z.ltb_spec (if neg then - D else D) (imin t)) as [Y1|Y1].
        * apply W; [|discriminate]. split; [discriminate|lia].
        * destruct (Z.ltb_spec (imax t) (if neg then - D else D)) as [Y2|Y2].
          -- apply W; [|discriminate]. split; [discriminate|lia].
          -- apply W; [|reflexivity]. split; [lia|reflexivity].
      + destruct neg; [destruct (Hn eq_refl); congruence|]. specialize (Hmin eq_refl).
        destruct (Z.ltb_spec (imax t) D).
        * apply W; [|discriminate]. split; [discriminate|lia].
        * apply W; [|reflexivity]. split; [lia|reflexivity]. }
  destruct string as [|c str].
  - rewrite andb_false_r. apply (G false [] None); try discriminate.
    + intros s v Hv. inversion Hv; subst. now repeat split.
    + intros X. congruence.
  - destruct (Z.eqb_spec c c_dash) as [->|Hd].
    + rewrite andb_true_r. destruct (bool_dec (isigned t) true) as [Sg|Sg]; [|apply not_true_is_false in Sg]; rewrite Sg at 1; cbn [negb].
      * unfold extract. cbn [Z.eqb Pos.eqb c_dash]. apply (G true str (Some 45)); try discriminate.
        -- now split.
        -- intros s v Hv. inversion Hv; subst; [|now repeat split].
           match goal with H : Forall _ (_ :: _) |- _ => inversion H; subst; unfold c_dash in *; lia end.
        -- intros Ne F. now apply num_minus.
      * unfold P. cbn [fst snd]. split; [|discriminate]. split; [discriminate|].
        intros (s & v & Hv & _ & Hs). specialize (Hs Sg). inversion Hv; subst; [|congruence].
        match goal with H : Forall _ (_ :: _) |- _ => inversion H; subst; unfold c_dash in *; lia end.
    + rewrite andb_false_r. unfold extract. rewrite (proj2 (Z.eqb_neq c c_dash) Hd). destruct (Z.eqb_spec c c_plus) as [->|Hp].
      * apply (G false str (Some 43)); try discriminate.
        -- intros s v Hv. inversion Hv; subst; [|now repeat split].
           match goal with H : Forall _ (_ :: _) |- _ => inversion H; subst; unfold c_plus in *; lia end.
        -- intros Ne F. now apply num_plus.
      * apply (G false (c :: str) None); try discriminate.
        -- intros s v Hv. unfold c_dash, c_plus in *. inversion Hv; subst; try congruence. now repeat split.
        -- intros Ne F. now apply num_plain.
Qed.

Example parse_integer_case :
  ity_ok (ITy 32 true) /\ numeral (Some 45) [45; 49; 50] (-12) /\ in_range (ITy 32 true) (-12) /\
  do_parse (ITy 32 true) [45; 49; 50] 7 = (true, -12) /\
  do_parse (ITy 32 false) [45; 49; 50] 7 = (false, 7) /\
  do_parse (ITy 16 true) [51; 50; 55; 54; 56] 7 = (false, 32767).
Proof.
  split; [cbv; discriminate|]. split.
  - apply (num_minus [49; 50]); [discriminate|]. repeat constructor; lia.
  - split; [unfold in_range; cbn; lia|]. repeat split.
Qed.

(* C132: if parsing fails, the variable is left untouched *)
Theorem parse_untouched_partial t str var : isigned t = false ->
  do_parse t (45 :: str) var = (false, var).
Proof. intros U. unfold do_parse. now rewrite U. Qed.
Example parse_untouched_case : isigned (ITy 64 false) = false /\ do_parse (ITy 64 false) [45; 53] 7 = (false, 7).
Proof. split; reflexivity. Qed.

(* The full statement is false: a number followed by something else is assigned *)
Theorem parse_untouched_refuted :
  ~ forall t str var, ity_ok t -> in_range t var -> fst (do_parse t str var) = false -> snd (do_parse t str var) = var.
Proof.
  intros H. specialize (H (ITy 32 true) [49; 50; 120] 7). vm_compute in H.
  discriminate H; [discriminate|split; discriminate|reflexivity].
Qed.
Example parse_untouched_cases :
  do_parse (ITy 32 true) [49; 50; 120] 7 = (false, 12) /\ do_parse (ITy 32 true) [] 7 = (false, 0).
Proof. split; reflexivity. Qed.

Print Assumptions parse_integer_exact.
Print Assumptions parse_untouched_partial.
Print Assumptions parse_untouched_refuted.
