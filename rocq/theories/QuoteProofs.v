(* Lemmas for C42: what the rendering of a character means to the reader of literals. *)
From Coq Require Import ZArith Bool List Lia ZifyBool.
From Verif Require Import CInt IntSpec ArrLib IntModel IntTextModel IntTextSpec IntProps IntTextProofs IntTextProps.
From Verif Require Import QuoteModel QuoteSpec.
Import ListNotations.
Open Scope Z_scope.

Section Reader.
  Variables q w : Z.
  Notation read := (read q w).
  Notation emit := (emit w).

  Lemma octal_digit_char c d : digit_char c d -> d < 8 -> octal_digit c = Some d.
  Proof. intros H Hd. unfold octal_digit, digit_char in *. destruct (_ && _) eqn:E; [f_equal; lia|lia]. Qed.

  Lemma hex_digit_char c d : digit_char c d -> d < 16 -> hex_digit c = Some d.
  Proof.
    intros H Hd. unfold hex_digit, digit_char in *.
    repeat match goal with |- context[if ?b then _ else _] => destruct b eqn:? end; first [f_equal; lia | lia].
  Qed.

  Lemma read_octal cs ds : digit_string 8 cs ds -> forall n v rest, (n + length cs <= 3)%nat ->
    read (Octal n v) (cs ++ rest) = read (Octal (n + length cs) (v * 8 ^ Z.of_nat (length ds) + positional 8 ds)) rest.
  Proof.
    intros [F G]. revert G. induction F as [|c d cs ds Hc F IH]; intros G n v rest Hn.
    - cbn [length app positional]. rewrite Nat.add_0_r. f_equal. f_equal. cbn. lia.
    - inversion G; subst. cbn [length] in Hn. cbn [app QuoteSpec.read positional].
      rewrite (octal_digit_char c d) by assumption.
      replace (n <? 3)%nat with true by lia. rewrite IH by (assumption || lia).
      cbn [length]. f_equal. f_equal; [lia|]. rewrite Nat2Z.inj_succ, Z.pow_succ_r by lia. ring.
  Qed.

  Lemma read_hex cs ds : digit_string 16 cs ds -> forall n v rest,
    read (Hex n v) (cs ++ rest) = read (Hex (n + length cs) (v * 16 ^ Z.of_nat (length ds) + positional 16 ds)) rest.
  Proof.
    intros [F G]. revert G. induction F as [|c d cs ds Hc F IH]; intros G n v rest.
    - cbn [length app positional]. rewrite Nat.add_0_r. f_equal. f_equal. cbn. lia.
    - inversion G; subst. cbn [app QuoteSpec.read positional].
      rewrite (hex_digit_char c d) by assumption.
      rewrite IH by assumption.
      cbn [length]. f_equal. f_equal; [lia|]. rewrite Nat2Z.inj_succ, Z.pow_succ_r by lia. ring.
  Qed.

  Lemma octal_stops n v rest :
    n = 3%nat \/ (forall r t, rest = r :: t -> octal_digit r = None) ->
    read (Octal n v) rest = emit v (read Plain rest).
  Proof.
    intros H. destruct rest as [|r t]; [reflexivity|]. cbn [QuoteSpec.read].
    destruct (octal_digit r) as [d|] eqn:E; [|reflexivity].
    destruct H as [->|H]; [reflexivity|]. rewrite (H r t eq_refl) in E. discriminate.
  Qed.

  Lemma hex_stops n v rest :
    (forall r t, rest = r :: t -> hex_digit r = None) ->
    read (Hex (S n) v) rest = emit v (read Plain rest).
  Proof.
    intros H. destruct rest as [|r t]; [reflexivity|]. cbn [QuoteSpec.read Nat.eqb].
    rewrite (H r t eq_refl). reflexivity.
  Qed.

  Lemma octal_is_hex r : octal_digit r <> None -> hex_digit r <> None.
  Proof. unfold octal_digit, hex_digit. destruct ((48 <=? r) && (r <=? 55)) eqn:E; [|congruence].
    replace ((48 <=? r) && (r <=? 57)) with true by lia. discriminate. Qed.
End Reader.

Lemma digit_string_length radix cs ds : digit_string radix cs ds -> length cs = length ds.
Proof. intros [F _]. induction F; cbn; congruence. Qed.

Lemma digit_string_nonneg radix cs ds : digit_string radix cs ds -> Forall (fun d => 0 <= d) ds.
Proof. intros [F _]. induction F as [|c d cs ds H F IH]; constructor; [unfold digit_char in H; lia|assumption]. Qed.

(* a numeral without superfluous leading zeros is as long as its value requires *)
Lemma digits_at_most radix cs ds m n :
  2 <= radix -> digit_string radix cs ds -> positional radix ds < radix ^ n -> 0 <= n -> m <= n ->
  (forall ds', ds = 0 :: ds' -> Z.of_nat (length cs) <= m) -> Z.of_nat (length cs) <= n.
Proof.
  intros Hr Hd Hv Hn Hm H. pose proof (digit_string_length _ _ _ Hd) as Hl.
  pose proof (digit_string_nonneg _ _ _ Hd) as Hp. destruct ds as [|d ds]; [cbn in Hl; lia|].
  inversion Hp; subst. destruct (Z.eq_dec d 0) as [->|Hd0]; [specialize (H ds eq_refl); lia|].
  rewrite Hl. cbn [length] in *. cbn [positional] in Hv.
  pose proof (positional_nonneg radix ds ltac:(lia) ltac:(assumption)).
  destruct (Z_lt_le_dec n (Z.of_nat (S (length ds)))) as [L|]; [|lia].
  assert (radix ^ n <= radix ^ Z.of_nat (length ds)) by (apply Z.pow_le_mono_r; lia).
  pose proof (Z.pow_pos_nonneg radix (Z.of_nat (length ds)) ltac:(lia) ltac:(lia)). nia.
Qed.

Section Render.
  Variables (C U : ity).
  Variables print xdigit space : Z -> bool.
  Variable quote : Z.
  Hypothesis HC : ity_ok C.
  Hypothesis HC8 : 8 <= iwidth C.
  Hypothesis HU : ity_ok U.
  Hypothesis HUu : isigned U = false.
  Hypothesis HW : iwidth C <= iwidth U.
  Hypothesis Hquote : quote = 34 \/ quote = 39.
  Notation w := (iwidth C).
  Notation render := (render C U print xdigit quote).
  Notation find := (find print xdigit space quote).
  Notation read := (read quote w).
  Notation code := (code w).

  Lemma pow_w : 256 <= 2 ^ w.
  Proof. change 256 with (2 ^ 8). apply Z.pow_le_mono_r; lia. Qed.

  Lemma code_range c : 0 <= code c < 2 ^ w.
  Proof. apply Z.mod_pos_bound. pose proof pow_w. lia. Qed.

  Lemma code_small c : 0 <= c < 128 -> code c = c.
  Proof. intros. apply Z.mod_small. pose proof pow_w. lia. Qed.

  Lemma char_value_code c : in_range C c -> char_value C U c = code c.
  Proof.
    intros Hc. unfold char_value, QuoteSpec.code. pose proof pow_w.
    unfold wrap at 1 2. rewrite HUu.
    assert (E : (c mod 2 ^ iwidth U) mod 2 ^ w = c mod 2 ^ w).
    { replace (2 ^ iwidth U) with (2 ^ w * 2 ^ (iwidth U - w)) by (rewrite <- Z.pow_add_r by lia; f_equal; lia).
      rewrite Z.rem_mul_r by (try apply Z.pow_pos_nonneg; try (apply Z.pow_nonzero); lia).
      rewrite Z.mul_comm, Z_mod_plus_full. apply Z.mod_mod. lia. }
    destruct (isigned C) eqn:Es; cbn [andb].
    - destruct (iwidth U >? w) eqn:Ew.
      + replace (2 ^ w - 1) with (Z.ones w) by (rewrite Z.ones_equiv; lia).
        rewrite Z.land_ones by lia. exact E.
      + replace (iwidth U) with w by lia. reflexivity.
    - unfold in_range, imin, imax in Hc. rewrite Es in Hc.
      assert (2 ^ w <= 2 ^ iwidth U) by (apply Z.pow_le_mono_r; lia).
      rewrite !Z.mod_small by lia. reflexivity.
  Qed.

  Lemma code_representable c : representable U (code c).
  Proof.
    unfold representable. rewrite HUu. pose proof (code_range c).
    assert (2 ^ w <= 2 ^ iwidth U) by (apply Z.pow_le_mono_r; lia). lia.
  Qed.

  (* the text after the rendering of a character does not extend an escape sequence *)
  Definition compatible (next : list Z) (fh : bool) (rest : list Z) : Prop :=
    forall r t, rest = r :: t ->
      (hex_digit r <> None -> fh = false) /\
      (octal_digit r <> None -> exists c n, next = c :: n /\ 48 <= c <= 55).

  Definition renders (c : Z) (next : list Z) (p : list Z) (fh : bool) : Prop :=
    p <> [] /\ Z.of_nat (length p) <= w + 2 /\
    (forall r t, p = r :: t -> r = 92 \/ (p = [c] /\ print c = true)) /\
    (forall rest, compatible next fh rest ->
       read Plain (p ++ rest) = option_map (cons (code c)) (read Plain rest)).

  Lemma numeric_ok c next : in_range C c ->
    exists p fh, render_numeric C U c next = Some (92 :: p, fh) /\ renders c next (92 :: p) fh /\
      (fh = true -> exists t, p = 120 :: t).
  Proof.
    intros Hc. unfold render_numeric. rewrite char_value_code by assumption.
    pose proof (code_range c) as Hr. pose proof (code_representable c) as Hrep.
    destruct (code c <? 512) eqn:E.
    - set (mnd := match next with [] => 1 | ch_1 :: _ => if (ch_1 <? 48) || (ch_1 >? 55) then 1 else 3 end).
      assert (Hm : mnd = 1 /\ ~ (exists c n, next = c :: n /\ 48 <= c <= 55) \/ mnd = 3).
      { subst mnd. destruct next as [|c1 n]; [left; split; [reflexivity|intros (? & ? & [=] & ?)]|].
        destruct ((c1 <? 48) || (c1 >? 55)) eqn:E1; [left; split; [reflexivity|]|now right].
        intros (c2 & n2 & [= <- <-] & ?). lia. }
      clearbody mnd.
      destruct (format_exact Z (fun c => c) U false (code c) 8 mnd HU Hrep ltac:(lia))
        as (m & cs & ds & Hm1 & _ & Ef & Hd & Hp & _ & Hlen & Hlead).
      specialize (Hm1 ltac:(lia)). subst m.
      replace (code c <? 0) with false in Ef by lia. rewrite map_id in Ef. cbn [app] in Ef.
      rewrite Ef. exists cs, false. split; [reflexivity|]. split; [|discriminate].
      assert (Hl3 : Z.of_nat (length cs) <= 3).
      { apply (digits_at_most 8 cs ds mnd 3); try assumption; try lia. }
      assert (Hc1 : (1 <= length cs)%nat) by lia.
      split; [discriminate|split; [cbn [length] in *; lia|split; [intros r t [= <- _]; now left|]]].
      intros rest Hcomp.
      destruct cs as [|c0 cs]; [cbn in Hc1; lia|]. destruct ds as [|d0 ds]; [destruct Hd as [F _]; inversion F|].
      assert (E0 : octal_digit c0 = Some d0).
      { destruct Hd as [F G]. inversion F; inversion G; subst. now apply octal_digit_char. }
      assert (Hs : simple_escape c0 = None).
      { unfold octal_digit in E0. destruct (_ && _) eqn:Eb in E0; [|discriminate]. unfold simple_escape.
        repeat match goal with |- context[if ?b then _ else _] => destruct b eqn:?; [exfalso; lia|] end. reflexivity. }
      assert (Hx : (c0 =? 120) = false).
      { unfold octal_digit in E0. destruct (_ && _) eqn:Eb in E0; [lia|discriminate]. }
      cbn [app]. cbn [QuoteSpec.read]. replace (92 =? 92) with true by reflexivity.
      rewrite Hs, Hx, E0.
      assert (Hd' : digit_string 8 cs ds) by (destruct Hd as [F G]; inversion F; inversion G; split; assumption).
      rewrite (read_octal quote w cs ds Hd') by (cbn [length] in Hl3; lia).
      rewrite octal_stops.
      + cbn [positional] in Hp. rewrite Hp. rewrite Z.abs_eq by lia. unfold emit.
        replace (code c <? 2 ^ w) with true by lia. reflexivity.
      + destruct Hm as [[_ Hn]|Hm3]; [right|left; cbn [length] in *; lia].
        intros r t Er. destruct (Hcomp r t Er) as [_ Ho].
        destruct (octal_digit r); [|reflexivity]. exfalso. apply Hn, Ho. discriminate.
    - destruct (format_exact Z (fun c => c) U false (code c) 16 1 HU Hrep ltac:(lia))
        as (m & cs & ds & Hm1 & _ & Ef & Hd & Hp & _ & Hlen & Hlead).
      specialize (Hm1 ltac:(lia)). subst m.
      replace (code c <? 0) with false in Ef by lia. rewrite map_id in Ef. cbn [app] in Ef.
      rewrite Ef. exists (120 :: cs), true. split; [reflexivity|]. split; [|eauto].
      split; [discriminate|split; [cbn [length]; pose proof (digits_at_most 16 cs ds 1 w ltac:(lia) Hd) as Hle;
        rewrite Hp, Z.abs_eq in Hle by lia;
        assert (2 ^ w <= 16 ^ w) by (apply Z.pow_le_mono_l; lia);
        specialize (Hle ltac:(lia) ltac:(lia) ltac:(lia) Hlead); lia|split; [intros r t [= <- _]; now left|]]].
      intros rest Hcomp. cbn [app]. cbn [QuoteSpec.read].
      replace (92 =? 92) with true by reflexivity.
      change (simple_escape 120) with (@None Z). replace (120 =? 120) with true by reflexivity. cbn match.
      rewrite (read_hex quote w cs ds Hd).
      destruct cs as [|c0 cs]; [cbn in Hlen; lia|]. cbn [length Nat.add]. rewrite hex_stops.
      + rewrite Hp, Z.abs_eq by lia. rewrite Z.mul_0_l, Z.add_0_l. unfold emit.
        replace (code c <? 2 ^ w) with true by lia. reflexivity.
      + intros r t Er. destruct (Hcomp r t Er) as [Hh _].
        destruct (hex_digit r); [|reflexivity]. discriminate Hh. discriminate.
  Qed.

  Hypothesis Hnl : print 10 = false.

  Lemma render_ok c next fh : in_range C c ->
    exists p fh', render (c :: next) fh = Some (p, fh') /\ renders c next p fh' /\
      (forall r t, p = r :: t -> r = 92 \/ (fh = true -> xdigit c = false)) /\
      (print c = true -> c <> quote -> c <> 92 -> (xdigit c = true -> fh = false) -> p = [c] /\ fh' = false) /\
      (fh' = true -> exists t, p = 92 :: 120 :: t).
  Proof.
    intros Hc. cbn [QuoteModel.render].
    destruct (print c && (negb fh || negb (xdigit c))) eqn:E1.
    - assert (Hpr : print c = true) by (now destruct (print c)).
      destruct (negb (c =? quote) && negb (c =? bslash)) eqn:E2.
      + exists [c], false. split; [reflexivity|]. unfold bslash in E2. split; [|split; [|split; [auto|discriminate]]].
        * split; [discriminate|split; [cbn; lia|split]].
          -- intros r t [= <- _]. right. now split.
          -- intros rest _. cbn [app QuoteSpec.read].
             replace (c =? 92) with false by lia. replace (c =? quote) with false by lia.
             destruct (c =? 10) eqn:E3; [|reflexivity].
             exfalso. replace c with 10 in Hpr by lia. congruence.
        * intros r t [= <- _]. right. intros ->. destruct (xdigit c); [|reflexivity].
          destruct (print c); discriminate E1.
      + exists [bslash; c], false. split; [reflexivity|]. unfold bslash in *.
        split; [|split; [intros r t [= <- _]; now left|split; [|discriminate]]].
        * split; [discriminate|split; [cbn; lia|split; [intros r t [= <- _]; now left|]]].
          intros rest _. cbn [app QuoteSpec.read]. replace (92 =? 92) with true by reflexivity.
          assert (Hcc : c = quote \/ c = 92) by lia. unfold simple_escape.
          replace ((c =? 39) || (c =? 34) || (c =? 63) || (c =? 92)) with true by lia.
          unfold emit. pose proof pow_w. replace (c <? 2 ^ w) with true by lia.
          now rewrite code_small by lia.
        * intros _ H1 H2. lia.
    - assert (Hno : print c = true -> c <> quote -> c <> 92 -> (xdigit c = true -> fh = false) -> False).
      { intros Hp _ _ Hx. rewrite Hp in E1. destruct fh; [|discriminate E1].
        destruct (xdigit c); [discriminate (Hx eq_refl)|discriminate E1]. }
      assert (Hesc : forall e v, c = v -> 0 <= v < 128 -> simple_escape e = Some v ->
        exists p fh', Some ([bslash; e], false) = Some (p, fh') /\ renders c next p fh' /\
          (forall r t, p = r :: t -> r = 92 \/ (fh = true -> xdigit c = false)) /\
          (print c = true -> c <> quote -> c <> 92 -> (xdigit c = true -> fh = false) -> p = [c] /\ fh' = false) /\
          (fh' = true -> exists t, p = 92 :: 120 :: t)).
      { intros e v Hv Hv' He. exists [bslash; e], false. split; [reflexivity|]. unfold bslash.
        split; [|split; [intros r t [= <- _]; now left|split; [intros; exfalso; auto|discriminate]]].
        split; [discriminate|split; [cbn; lia|split; [intros r t [= <- _]; now left|]]].
        intros rest _. cbn [app QuoteSpec.read]. replace (92 =? 92) with true by reflexivity.
        rewrite He. unfold emit. pose proof pow_w. replace (v <? 2 ^ w) with true by lia.
        subst v. now rewrite code_small by lia. }
      assert (Hnar : forall v, 0 < v < 128 -> (narrow c =? v) = true -> c = v).
      { intros v Hv H. unfold narrow in H. destruct ((0 <=? c) && (c <? 128)); lia. }
      destruct (narrow c =? 7) eqn:N1; [apply Hnar in N1; [|lia]; now apply (Hesc 97 7)|].
      destruct (narrow c =? 8) eqn:N2; [apply Hnar in N2; [|lia]; now apply (Hesc 98 8)|].
      destruct (narrow c =? 9) eqn:N3; [apply Hnar in N3; [|lia]; now apply (Hesc 116 9)|].
      destruct (narrow c =? 10) eqn:N4; [apply Hnar in N4; [|lia]; now apply (Hesc 110 10)|].
      destruct (narrow c =? 11) eqn:N5; [apply Hnar in N5; [|lia]; now apply (Hesc 118 11)|].
      destruct (narrow c =? 12) eqn:N6; [apply Hnar in N6; [|lia]; now apply (Hesc 102 12)|].
      destruct (narrow c =? 13) eqn:N7; [apply Hnar in N7; [|lia]; now apply (Hesc 114 13)|].
      destruct (numeric_ok c next Hc) as (p & fh' & E & Hr & Hh).
      exists (92 :: p), fh'. split; [exact E|]. split; [exact Hr|].
      split; [intros r t [= <- _]; now left|]. split; [intros; exfalso; auto|].
      intros H. destruct (Hh H) as [t ->]. eauto.
  Qed.

  (* the renderings of all the characters of a string *)
  Fixpoint pieces (fh : bool) (s : list Z) : list (list Z) :=
    match s with
    | [] => []
    | _ :: s' =>
      match render s fh with
      | Some (p, fh') => p :: pieces fh' s'
      | None => []
      end
    end.

  Lemma pieces_length fh s : Forall (in_range C) s -> length (pieces fh s) = length s.
  Proof.
    intros H. revert fh. induction H as [|c s Hc Hs IH]; intros fh; [reflexivity|]. cbn [pieces].
    destruct (render_ok c s fh Hc) as (p & fh' & E & _). rewrite E. cbn [length]. now rewrite IH.
  Qed.

  Lemma pieces_cons c s fh p fh' : render (c :: s) fh = Some (p, fh') -> pieces fh (c :: s) = p :: pieces fh' s.
  Proof. intros E. cbn [pieces]. now rewrite E. Qed.

  Lemma pieces_size s : Forall (in_range C) s -> forall fh,
    Z.of_nat (length (concat (pieces fh s))) <= (w + 2) * Z.of_nat (length s).
  Proof.
    intros H. induction H as [|c s Hc Hs IH]; intros fh; [cbn; lia|]. cbn [pieces].
    destruct (render_ok c s fh Hc) as (p & fh' & E & (_ & Hl & _) & _). rewrite E. cbn [concat length].
    rewrite app_length. specialize (IH fh'). lia.
  Qed.

  Lemma pieces_nonempty fh s : Forall (in_range C) s -> Forall (fun p => p <> []) (pieces fh s).
  Proof.
    intros H. revert fh. induction H as [|c s Hc Hs IH]; intros fh; [constructor|]. cbn [pieces].
    destruct (render_ok c s fh Hc) as (p & fh' & E & (Hp & _) & _). rewrite E. constructor; auto.
  Qed.

  Hypothesis Hxdigit : forall c, hex_digit c <> None -> xdigit c = true.

  Lemma pieces_read s : Forall (in_range C) s -> forall fh k tail,
    (forall r t, tail = r :: t -> hex_digit r = None) ->
    read Plain (concat (firstn k (pieces fh s)) ++ tail) =
    option_map (app (map code (firstn k s))) (read Plain tail).
  Proof.
    intros H. induction H as [|c s Hc Hs IH]; intros fh k tail Ht.
    - cbn [pieces]. rewrite !firstn_nil. cbn. now destruct (read Plain tail).
    - destruct k as [|k]; [cbn; now destruct (read Plain tail)|].
      destruct (render_ok c s fh Hc) as (p & fh' & E & (Hp & _ & _ & Hr) & _).
      rewrite (pieces_cons _ _ _ _ _ E). cbn [firstn concat map]. rewrite <- app_assoc. rewrite Hr.
      + rewrite IH by assumption. destruct (read Plain tail); reflexivity.
      + intros r t Er.
        assert (Htail : tail = r :: t -> (hex_digit r <> None -> fh' = false) /\
                   (octal_digit r <> None -> exists c n, s = c :: n /\ 48 <= c <= 55)).
        { intros Et. pose proof (Ht r t Et). split; [congruence|].
          intros Ho. apply octal_is_hex in Ho. congruence. }
        destruct k as [|k]; [apply Htail; exact Er|].
        destruct s as [|c1 s1]; [apply Htail; exact Er|].
        inversion Hs as [|? ? Hc1 Hs1]; subst.
        destruct (render_ok c1 s1 fh' Hc1) as (p1 & fh1 & E1 & (Hp1 & _ & Hf1 & _) & Hx1 & _).
        rewrite (pieces_cons _ _ _ _ _ E1) in Er. cbn [firstn concat] in Er.
        destruct p1 as [|r1 t1]; [congruence|]. cbn [app] in Er. injection Er as <- _.
        destruct (Hx1 r1 t1 eq_refl) as [->|Hx]; [cbn; split; congruence|].
        destruct (Hf1 r1 t1 eq_refl) as [->|[E2 _]]; [cbn; split; congruence|].
        injection E2 as -> ->. split.
        * intros Hh. apply Hxdigit in Hh. destruct fh'; [|reflexivity]. specialize (Hx eq_refl). congruence.
        * intros Ho. exists c1, s1. split; [reflexivity|]. unfold octal_digit in Ho.
          destruct (_ && _) eqn:Eb in Ho; [lia|congruence].
  Qed.

  Lemma pieces_plain s : Forall (in_range C) s -> forall fh i c p,
    nth_error s i = Some c -> nth_error (pieces fh s) i = Some p ->
    print c = true -> c <> quote -> c <> 92 ->
    (xdigit c = true -> match i with
                        | O => fh = false
                        | S j => forall t, nth_error (pieces fh s) j <> Some (92 :: 120 :: t)
                        end) ->
    p = [c].
  Proof.
    intros H. induction H as [|c0 s Hc Hs IH]; intros fh i c p E Ep Hpr Hq Hb Hx; [now destruct i|].
    destruct (render_ok c0 s fh Hc) as (p0 & fh' & E0 & _ & _ & Hpl & Hh).
    rewrite (pieces_cons _ _ _ _ _ E0) in *. destruct i as [|i]; cbn [nth_error] in *.
    - injection E as ->. injection Ep as ->. now apply Hpl.
    - apply (IH fh' i c p E Ep Hpr Hq Hb). intros Hxc. specialize (Hx Hxc).
      destruct i as [|i]; [|exact Hx]. destruct fh'; [|reflexivity].
      destruct (Hh eq_refl) as [t ->]. exfalso. apply (Hx t). reflexivity.
  Qed.
End Render.
