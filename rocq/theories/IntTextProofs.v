(* Lemmas for C39 and C43. *)
From Coq Require Import ZArith Lia Bool List ZifyBool.
From Verif Require Import CInt IntModel IntSpec IntProofs IntTextModel IntTextSpec.
Import ListNotations.
Open Scope Z_scope.

(* ------------------------------------------------------------------ *)
(* digits *)

Definition digit_of (c : Z) : Z :=
  if (48 <=? c) && (c <=? 57) then c - 48
  else if (65 <=? c) && (c <=? 90) then c - 55
  else if (97 <=? c) && (c <=? 122) then c - 87 else -1.

Lemma switch_out cases ch : Forall (fun p => 0 <= fst p < 128) cases -> ~ (0 <= ch < 128) ->
  switch cases ch = -1.
Proof.
  intros H Hc. induction H as [|[c v] l Hp _ IH]; [reflexivity|]. cbn [switch]. cbn in Hp.
  destruct (Z.eqb_spec ch c); [lia|exact IH].
Qed.

Lemma map_digit_of c : map_digit c = digit_of c.
Proof.
  destruct (Z_lt_le_dec c 0) as [L|L]; [|destruct (Z_lt_le_dec c 128) as [U|U]].
  - unfold map_digit. rewrite switch_out; [unfold digit_of|apply Forall_forall|lia].
    + replace (48 <=? c) with false by lia. replace (65 <=? c) with false by lia.
      replace (97 <=? c) with false by lia. reflexivity.
    + apply Forall_forall. repeat (constructor; [cbn; lia|]). constructor.
  - assert (H : forallb (fun n => map_digit (Z.of_nat n) =? digit_of (Z.of_nat n)) (seq 0 128) = true)
      by (vm_compute; reflexivity).
    rewrite forallb_forall in H. specialize (H (Z.to_nat c)).
    rewrite Z2Nat.id in H by lia. apply Z.eqb_eq, H. apply in_seq. lia.
  - unfold map_digit. rewrite switch_out; [unfold digit_of|apply Forall_forall|lia].
    + replace (c <=? 57) with false by lia. replace (c <=? 90) with false by lia.
      replace (c <=? 122) with false by lia. rewrite !andb_false_r. reflexivity.
    + apply Forall_forall. repeat (constructor; [cbn; lia|]). constructor.
Qed.

Lemma digit_of_spec c d : digit_char c d <-> digit_of c = d /\ d <> -1.
Proof.
  unfold digit_char, digit_of.
  destruct (Z.leb_spec 48 c), (Z.leb_spec c 57), (Z.leb_spec 65 c), (Z.leb_spec c 90),
    (Z.leb_spec 97 c), (Z.leb_spec c 122); cbn [andb]; lia.
Qed.

Lemma map_digit_radix_spec c radix d :
  map_digit_radix c radix = Some d <-> digit_char c d /\ d < radix.
Proof.
  unfold map_digit_radix. cbv zeta. rewrite map_digit_of, digit_of_spec.
  destruct (Z.eqb_spec (digit_of c) (-1)), (Z.ltb_spec (digit_of c) radix); cbn [negb andb];
    split; try discriminate; try (intros [= <-]; lia); intros; try lia.
  f_equal. lia.
Qed.

Lemma digit_char_range c d : digit_char c d -> 0 <= d < 36.
Proof. unfold digit_char. lia. Qed.
Lemma digit_char_not_sign c d : digit_char c d -> c <> 43 /\ c <> 45.
Proof. unfold digit_char. lia. Qed.
Lemma digit_char_fun c d e : digit_char c d -> digit_char c e -> d = e.
Proof. unfold digit_char. lia. Qed.

(* ------------------------------------------------------------------ *)
(* positional values *)

Lemma positional_nonneg radix ds : 0 < radix -> Forall (fun d => 0 <= d) ds -> 0 <= positional radix ds.
Proof.
  intros Hr H. induction H as [|d l Hd _ IH]; cbn [positional]; [lia|].
  pose proof (Z.pow_pos_nonneg radix (Z.of_nat (length l))). nia.
Qed.

Lemma positional_app radix a b :
  0 < radix ->
  positional radix (a ++ b) = positional radix a * radix ^ Z.of_nat (length b) + positional radix b.
Proof.
  intros Hr. induction a as [|d a IH]; cbn [positional app]; [lia|].
  rewrite IH, app_length, Nat2Z.inj_add, Z.pow_add_r by lia. ring.
Qed.

Lemma positional_bound radix ds : 0 < radix -> Forall (fun d => 0 <= d < radix) ds ->
  0 <= positional radix ds < radix ^ Z.of_nat (length ds).
Proof.
  intros Hr H. induction H as [|d l Hd _ IH]; cbn [positional length]; [cbn; lia|].
  rewrite Nat2Z.inj_succ, Z.pow_succ_r by lia. nia.
Qed.

Lemma digit_string_nonneg radix cs ds : digit_string radix cs ds -> Forall (fun d => 0 <= d) ds.
Proof.
  intros [H _]. induction H; constructor; auto. now apply digit_char_range in H.
Qed.

Lemma digit_string_range radix cs ds : digit_string radix cs ds -> Forall (fun d => 0 <= d < radix) ds.
Proof.
  intros H. pose proof (digit_string_nonneg _ _ _ H) as H0. destruct H as [_ H].
  rewrite Forall_forall in *. intros d Hd. split; auto.
Qed.

(* ------------------------------------------------------------------ *)
(* parsing *)

Lemma in_range_between I x y : ity_ok I -> in_range I y -> (0 <= x <= y \/ y <= x <= 0) -> in_range I x.
Proof.
  intros HI Hy H. pose proof (pow_nvb_pos I HI). rewrite in_range_nvb in *. destruct (isigned I); lia.
Qed.

Lemma in_range_int_small x : -36 <= x <= 36 -> in_range t_int x.
Proof. unfold in_range, imin, imax. cbn. lia. Qed.

Section CharType.
Context {C : Type} (narrow : C -> Z).

Lemma parse_loop_spec I radix sv : ity_ok I -> 2 <= radix <= 36 -> (sv = 1 \/ sv = -1) ->
  forall s val, in_range I val -> 0 <= sv * val ->
  exists r, parse_loop narrow I radix sv s val = Some r /\
    forall v, r = Some v <-> exists ds, digit_string radix (map narrow s) ds /\
      v = val * radix ^ Z.of_nat (length ds) + sv * positional radix ds /\ in_range I v.
Proof.
  intros HI Hr Hsv. induction s as [|ch s IH]; intros val Hval H0; cbn [parse_loop map].
  - exists (Some val). split; [reflexivity|]. intros v. split.
    + intros [= <-]. exists []. split; [split; constructor|]. cbn. split; [lia|assumption].
    + intros (ds & [H _] & -> & _). inversion H; subst. cbn. f_equal. lia.
  - assert (Hrad : in_range t_int radix) by (apply in_range_int_small; lia).
    destruct (map_digit_radix (narrow ch) radix) as [d|] eqn:Ed.
    + apply map_digit_radix_spec in Ed. destruct Ed as [Hd Hdr].
      pose proof (digit_char_range _ _ Hd) as Hdb.
      (* every numeral continuing from here has the value of a numeral of the rest *)
      assert (Hstep : forall ds, digit_string radix (narrow ch :: map narrow s) ds ->
         exists ds', ds = d :: ds' /\ digit_string radix (map narrow s) ds' /\
           val * radix ^ Z.of_nat (length ds) + sv * positional radix ds =
           (val * radix + sv * d) * radix ^ Z.of_nat (length ds') + sv * positional radix ds').
      { intros ds [F B]. inversion F as [|? e ? ds' He F' E1 E2]; subst.
        inversion B; subst. assert (e = d) by eauto using digit_char_fun. subst e.
        exists ds'. split; [reflexivity|]. split; [split; assumption|]. cbn [positional length].
        rewrite Nat2Z.inj_succ, Z.pow_succ_r by lia. ring. }
      assert (Hmono : forall ds', digit_string radix (map narrow s) ds' ->
         let w := (val * radix + sv * d) * radix ^ Z.of_nat (length ds') + sv * positional radix ds' in
         in_range I w -> in_range I (val * radix) /\ in_range I (val * radix + sv * d)).
      { intros ds' Hds w Hw.
        pose proof (positional_nonneg radix ds' ltac:(lia) (digit_string_nonneg _ _ _ Hds)) as Hp.
        assert (Hpow : 1 <= radix ^ Z.of_nat (length ds')).
        { pose proof (Z.pow_pos_nonneg radix (Z.of_nat (length ds'))). lia. }
        assert (Hx : in_range I (val * radix + sv * d)).
        { apply (in_range_between I _ w); auto. unfold w. destruct Hsv; subst sv.
          - left. nia.
          - right. nia. }
        split; [|exact Hx]. apply (in_range_between I _ _ HI Hx). destruct Hsv; subst sv; [left|right]; nia. }
      assert (Hcm : cmul (t_int, sv) (t_int, d) = Some (t_int, sv * d)).
      { unfold cmul. rewrite cbin_same.
        - change (promo t_int) with t_int. apply norm_in; [apply in_range_int_small; lia|apply t_int_ok].
        - apply t_int_ok.
        - apply in_range_int_small; lia.
        - apply in_range_int_small; lia. }
      rewrite try_int_mul_spec by auto using t_int_ok. unfold add_res.
      destruct (in_rangeb I (val * radix)) eqn:E1; cbn [obind fst snd negb].
      * apply in_rangeb_spec in E1. rewrite Hcm. cbn [obind fst snd].
        rewrite try_int_add_spec; auto using t_int_ok; [|apply in_range_int_small; lia].
        unfold add_res. destruct (in_rangeb I (val * radix + sv * d)) eqn:E2; cbn [obind fst snd negb].
        -- apply in_rangeb_spec in E2.
           destruct (IH (val * radix + sv * d) E2) as (r & Er & Hrr); [destruct Hsv; subst; nia|].
           exists r. split; [exact Er|]. intros v. rewrite Hrr. split.
           ++ intros (ds' & [F B] & Ev & Hv). exists (d :: ds'). split; [split; constructor; auto|].
              split; [|assumption]. rewrite Ev. cbn [positional length].
              rewrite Nat2Z.inj_succ, Z.pow_succ_r by lia. ring.
           ++ intros (ds & Hds & Ev & Hv). destruct (Hstep ds Hds) as (ds' & -> & Hds' & Heq).
              exists ds'. split; [assumption|]. split; [lia|assumption].
        -- apply in_rangeb_false in E2. exists None. split; [reflexivity|]. intros v.
           split; [discriminate|]. intros (ds & Hds & Ev & Hv).
           destruct (Hstep ds Hds) as (ds' & -> & Hds' & Heq). rewrite Heq in Ev. subst v.
           destruct (Hmono ds' Hds' Hv). contradiction.
      * apply in_rangeb_false in E1. exists None. split; [reflexivity|]. intros v.
        split; [discriminate|]. intros (ds & Hds & Ev & Hv).
        destruct (Hstep ds Hds) as (ds' & -> & Hds' & Heq). rewrite Heq in Ev. subst v.
        destruct (Hmono ds' Hds' Hv). contradiction.
    + exists None. split; [reflexivity|]. intros v. split; [discriminate|].
      intros (ds & [F B] & _). exfalso. inversion F; subst. inversion B; subst.
      assert (X : map_digit_radix (narrow ch) radix = Some y) by (apply map_digit_radix_spec; auto).
      congruence.
Qed.

Definition policy (I : ity) (s : sign_mode) : sign_policy :=
  match s with
  | SignAccept => AnySign
  | SignAcceptMinus => OnlyMinus
  | SignReject => NoSign
  | SignAuto => if isigned I then OnlyMinus else NoSign
  end.

(* the parse of the part after the sign *)
Lemma parse_body I radix sv s2 var : ity_ok I -> 2 <= radix <= 36 -> (sv = 1 \/ sv = -1) ->
  exists r, match s2 with
            | [] => Some (false, var)
            | _ => let* r := parse_loop narrow I radix sv s2 0 in
                   match r with Some val => Some (true, val) | None => Some (false, var) end
            end = Some (match r with Some v => (true, v) | None => (false, var) end) /\
    forall v, r = Some v <-> exists ds, ds <> [] /\ digit_string radix (map narrow s2) ds /\
      v = sv * positional radix ds /\ in_range I v.
Proof.
  intros HI Hr Hsv. destruct s2 as [|c s2].
  - exists None. split; [reflexivity|]. intros v. split; [discriminate|].
    intros (ds & Hne & [F _] & _). inversion F. congruence.
  - destruct (parse_loop_spec I radix sv HI Hr Hsv (c :: s2) 0) as (r & Er & H);
      [now apply in_range_0|lia|].
    exists r. rewrite Er. cbn [obind]. split; [destruct r; reflexivity|].
    intros v. rewrite H. split; intros (ds & H1 & H2).
    + exists ds. split; [|split; [assumption|]].
      * intros ->. destruct H1 as [F _]. inversion F.
      * rewrite Z.mul_0_l, Z.add_0_l in H2. exact H2.
    + exists ds. rewrite Z.mul_0_l, Z.add_0_l. exact H2.
Qed.

Lemma parse_spec I radix sign s var : ity_ok I -> 2 <= radix <= 36 ->
  exists r, parse narrow I radix sign s var =
      Some (match r with Some v => (true, v) | None => (false, var) end) /\
    forall v, r = Some v <-> numeral (policy I sign) radix (map narrow s) v /\ in_range I v.
Proof.
  intros HI Hr. unfold parse.
  assert (Hd : forall pol v, (forall c cs, map narrow s = c :: cs ->
        (c = 43 -> pol <> AnySign) /\ (c = 45 -> pol = NoSign)) ->
      ((numeral pol radix (map narrow s) v /\ in_range I v) <->
       exists ds, ds <> [] /\ digit_string radix (map narrow s) ds /\ v = 1 * positional radix ds /\ in_range I v)).
  { intros pol v Hns. split.
    - intros [(ds & Hne & [[H1 H2]|[(cs & E & E2 & _)|(cs & E & E2 & _)]]) Hv].
      + exists ds. rewrite Z.mul_1_l. auto.
      + destruct (Hns _ _ E) as [A _]. now destruct (A eq_refl).
      + destruct (Hns _ _ E) as [_ A]. now destruct (E2 (A eq_refl)).
    - intros (ds & Hne & H1 & H2 & H3). split; [|assumption]. exists ds. split; [assumption|]. left.
      rewrite Z.mul_1_l in H2. auto. }
  assert (Hs : forall pol v c rest sv, map narrow s = c :: rest ->
      (c = 43 /\ pol = AnySign /\ sv = 1 \/ c = 45 /\ pol <> NoSign /\ sv = -1) ->
      ((numeral pol radix (map narrow s) v /\ in_range I v) <->
       exists ds, ds <> [] /\ digit_string radix rest ds /\ v = sv * positional radix ds /\ in_range I v)).
  { intros pol v c rest sv E Hc. rewrite E. split.
    - intros [(ds & Hne & [[[H1 _] H2]|[(cs & E3 & E2 & H1 & H2)|(cs & E3 & E2 & H1 & H2)]]) Hv].
      + inversion H1; subst. apply digit_char_not_sign in H3. lia.
      + exists ds. inversion E3; subst. split; [assumption|]. split; [assumption|]. split; [lia|assumption].
      + exists ds. inversion E3; subst. split; [assumption|]. split; [assumption|]. split; [lia|assumption].
    - intros (ds & Hne & H1 & H2 & H3). split; [|assumption]. exists ds. split; [assumption|]. right.
      destruct Hc as [(-> & -> & ->)|(-> & Hp & ->)]; [left|right]; exists rest;
        (split; [reflexivity|]; split; [assumption || reflexivity|]; split; [assumption|]; lia). }
  assert (Hno : forall pol, (forall c cs, map narrow s = c :: cs ->
        (c = 43 -> pol <> AnySign) /\ (c = 45 -> pol = NoSign)) ->
     exists r, match s with
            | [] => Some (false, var)
            | _ => let* r := parse_loop narrow I radix 1 s 0 in
                   match r with Some val => Some (true, val) | None => Some (false, var) end
            end = Some (match r with Some v => (true, v) | None => (false, var) end) /\
      forall v, r = Some v <-> numeral pol radix (map narrow s) v /\ in_range I v).
  { intros pol Hns. destruct (parse_body I radix 1 s var HI Hr ltac:(auto)) as (r & Er & H).
    exists r. split; [exact Er|]. intros v. rewrite H, (Hd pol v Hns). tauto. }
  assert (Hyes : forall pol ch rest sv, s = ch :: rest ->
      (narrow ch = 43 /\ pol = AnySign /\ sv = 1 \/ narrow ch = 45 /\ pol <> NoSign /\ sv = -1) ->
     exists r, match rest with
            | [] => Some (false, var)
            | _ => let* r := parse_loop narrow I radix sv rest 0 in
                   match r with Some val => Some (true, val) | None => Some (false, var) end
            end = Some (match r with Some v => (true, v) | None => (false, var) end) /\
      forall v, r = Some v <-> numeral pol radix (map narrow s) v /\ in_range I v).
  { intros pol ch rest sv E Hc.
    destruct (parse_body I radix sv rest var HI Hr ltac:(lia)) as (r & Er & H).
    exists r. split; [exact Er|]. intros v. rewrite H.
    rewrite (Hs pol v (narrow ch) (map narrow rest) sv); [tauto|now rewrite E|assumption]. }
  assert (Hm : forall pol, pol = OnlyMinus -> exists r, (let '(sign_val, s2) := match s with
      | [] => (1, s)
      | ch :: rest => let ch2 := narrow ch in if ch2 =? 45 then (-1, rest) else (1, s)
      end in match s2 with
  | [] => Some (false, var)
  | _ =>
    let* r := parse_loop narrow I radix sign_val s2 0 in
    match r with
    | Some val => Some (true, val)
    | None => Some (false, var)
    end
  end) = Some (match r with Some v => (true, v) | None => (false, var) end) /\
      forall v, r = Some v <-> numeral pol radix (map narrow s) v /\ in_range I v).
  { intros pol ->. destruct s as [|ch rest].
    - apply Hno. cbn. discriminate.
    - cbv zeta. destruct (Z.eqb_spec (narrow ch) 45) as [E|E].
      + apply (Hyes OnlyMinus ch rest (-1) eq_refl). right. repeat split; [assumption|discriminate].
      + apply (Hno OnlyMinus). cbn. intros c cs [= <- _]. split; [discriminate|lia]. }
  unfold map_sign, policy. destruct sign.
  - destruct (isigned I); [now apply Hm|]. apply Hno. intros; split; [discriminate|reflexivity].
  - destruct s as [|ch rest].
    + apply Hno. cbn. discriminate.
    + cbv zeta. destruct (Z.eqb_spec (narrow ch) 43) as [E|E]; cbn [orb].
      * apply (Hyes AnySign ch rest 1 eq_refl). auto.
      * destruct (Z.eqb_spec (narrow ch) 45) as [E2|E2].
        -- apply (Hyes AnySign ch rest (-1) eq_refl). right. repeat split; [assumption|discriminate].
        -- apply (Hno AnySign). cbn. intros c cs [= <- _]. split; lia.
  - now apply Hm.
  - apply Hno. intros; split; [discriminate|reflexivity].
Qed.

End CharType.

(* ------------------------------------------------------------------ *)
(* division with a positive divisor *)

Lemma quot_abs a b : 0 < b -> Z.abs (Z.quot a b) = Z.abs a / b.
Proof.
  intros Hb. rewrite <- (Z.abs_eq b) at 2 by lia. rewrite <- Z.quot_div_nonneg; [|lia|lia].
  rewrite Z.quot_abs by lia. reflexivity.
Qed.

Lemma rem_abs a b : 0 < b -> Z.abs (Z.rem a b) = Z.abs a mod b.
Proof.
  intros Hb. rewrite <- (Z.abs_eq b) at 2 by lia. rewrite <- Z.rem_mod_nonneg; [|lia|lia].
  rewrite Z.rem_abs by lia. reflexivity.
Qed.

Lemma quot_between a b : 1 <= b -> 0 <= Z.quot a b <= a \/ a <= Z.quot a b <= 0.
Proof.
  intros Hb. destruct (Z_le_gt_dec 0 a).
  - left. rewrite Z.quot_div_nonneg by lia. split; [apply Z.div_pos; lia|]. apply Z.div_le_upper_bound; nia.
  - right. pose proof (Z.quot_opp_l a b ltac:(lia)) as H. rewrite Z.quot_div_nonneg in H by lia.
    pose proof (Z.div_pos (- a) b ltac:(lia) ltac:(lia)).
    pose proof (Z.div_le_upper_bound (- a) b (- a) ltac:(lia) ltac:(nia)). lia.
Qed.

Lemma rem_between a b : 1 <= b -> 0 <= a /\ 0 <= Z.rem a b <= a \/ a <= 0 /\ a <= Z.rem a b <= 0.
Proof.
  intros Hb. destruct (Z_le_gt_dec 0 a).
  - left. split; [lia|]. rewrite Z.rem_mod_nonneg by lia. split; [apply Z.mod_pos_bound; lia|].
    apply Z.mod_le; lia.
  - right. split; [lia|]. pose proof (Z.rem_opp_l a b ltac:(lia)) as H. rewrite Z.rem_mod_nonneg in H by lia.
    pose proof (Z.mod_pos_bound (- a) b ltac:(lia)). pose proof (Z.mod_le (- a) b ltac:(lia) ltac:(lia)). lia.
Qed.

Lemma int_divmod_trunc t a b : ity_ok t -> promo t = t -> in_range t a -> in_range t b -> 1 <= b ->
  int_divmod t a b = Some (Z.quot a b, Z.rem a b).
Proof.
  intros Ht Hp Ha Hb Hb1. unfold int_divmod, int_cast_a.
  destruct (strongly_promoted_facts t Ht) as (_ & _ & _ & _ & _ & E). cbv zeta in E.
  rewrite E, Hp. rewrite !wrap_id by assumption.
  assert (Hq : in_range t (Z.quot a b)) by (exact (in_range_between t _ a Ht Ha (quot_between a b Hb1))).
  assert (Hr : in_range t (Z.rem a b)).
  { apply (in_range_between t _ a Ht Ha). destruct (rem_between a b Hb1); tauto. }
  rewrite cdiv_same by (rewrite ?Hp; auto; lia). rewrite crem_same by (rewrite ?Hp; auto; lia).
  cbn [obind snd]. now rewrite !wrap_id.
Qed.

(* ------------------------------------------------------------------ *)
(* formatting *)

Definition case_ok (lower : bool) (c : Z) : Prop :=
  if lower then ~ (65 <= c <= 90) else ~ (97 <= c <= 122).

Lemma digits_nth (lower : bool) r : 0 <= r < 36 ->
  exists c, nth_error (if lower then lc_digits else uc_digits) (Z.to_nat r) = Some c /\
    digit_char c r /\ case_ok lower c.
Proof.
  intros Hr.
  assert (H : forall l : bool, forallb (fun n => match nth_error (if l then lc_digits else uc_digits) n with
     | None => false
     | Some c => (digit_of c =? Z.of_nat n) &&
        (if l then negb ((65 <=? c) && (c <=? 90)) else negb ((97 <=? c) && (c <=? 122)))
     end) (seq 0 36) = true) by (intros []; vm_compute; reflexivity).
  specialize (H lower). rewrite forallb_forall in H. specialize (H (Z.to_nat r)).
  rewrite in_seq in H. specialize (H ltac:(lia)).
  destruct (nth_error _ _) as [c|]; [|discriminate]. exists c. split; [reflexivity|].
  apply andb_prop in H. destruct H as [H1 H2]. split.
  - apply digit_of_spec. lia.
  - unfold case_ok. destruct lower; lia.
Qed.

Section CharType1.
Context {C : Type} (widen : Z -> C).

Lemma format_loop_spec I (lower neg : bool) radix mnd : ity_ok I -> promo I = I -> 2 <= radix <= 36 ->
  forall k fuel value (acc : list C), in_range I value -> (if neg then value <= 0 else 0 <= value) ->
  Z.abs value < 2 ^ Z.of_nat k -> (k < fuel)%nat -> (Z.to_nat (mnd - Z.of_nat (length acc)) < fuel)%nat ->
  exists cs ds, format_loop widen fuel I (if lower then lc_digits else uc_digits) neg radix mnd value acc
      = Some (map widen cs ++ acc) /\
    digit_string radix cs ds /\ Forall (case_ok lower) cs /\
    positional radix ds = Z.abs value /\ mnd <= Z.of_nat (length acc + length ds) /\
    match ds with d :: _ => d = 0 -> Z.of_nat (length acc + length ds) <= mnd | [] => True end.
Proof.
  intros HI Hp Hr. intros k fuel. revert k.
  induction fuel as [|fuel IH]; intros k value acc Hv Hs Hk Hf Hf2; [lia|].
  cbn [format_loop].
  destruct (negb (value =? 0) || (Z.of_nat (length acc) <? mnd)) eqn:E.
  - assert (HrI : in_range I radix).
    { pose proof (strongly_promoted_facts I HI) as F. cbv zeta in F. destruct F as (_ & _ & _ & _ & _ & F).
      assert (32 <= iwidth I) by (rewrite <- Hp; apply promo_width).
      assert (2 ^ 31 <= 2 ^ nvb I).
      { apply Z.pow_le_mono_r; [lia|]. unfold nvb. destruct (isigned I); lia. }
      rewrite in_range_nvb. destruct (isigned I); lia. }
    rewrite (wrap_id I radix) by assumption.
    rewrite int_divmod_trunc by (auto; lia). cbn [obind fst snd].
    pose proof (rem_abs value radix ltac:(lia)) as HR.
    pose proof (quot_abs value radix ltac:(lia)) as HQ.
    pose proof (Z.mod_pos_bound (Z.abs value) radix ltac:(lia)) as HRb.
    pose proof (rem_between value radix ltac:(lia)) as HRs.
    pose proof (quot_between value radix ltac:(lia)) as HQs.
    set (r := Z.abs (Z.rem value radix)) in *.
    rewrite (wrap_id t_int) by (apply t_int_ok || (apply in_range_int_small; lia)).
    assert (Hrem : (if neg then let* n := cneg (t_int, Z.rem value radix) in Some (snd n)
                    else Some (Z.rem value radix)) = Some r).
    { destruct neg.
      - unfold cneg. cbn [fst snd]. change (promo t_int) with t_int.
        rewrite norm_in by (apply t_int_ok || (apply in_range_int_small; lia)). cbn [obind snd]. f_equal. lia.
      - f_equal. lia. }
    rewrite Hrem. cbn [obind]. replace ((0 <=? r) && (r <? 36)) with true by lia.
    destruct (digits_nth lower r ltac:(lia)) as (c & Hc & Hcd & Hcase). rewrite Hc. cbn [obind].
    assert (Hdm : Z.abs value = radix * (Z.abs value / radix) + r) by (rewrite HR; apply Z.div_mod; lia).
    destruct (IH (Nat.pred k) (Z.quot value radix) (widen c :: acc))
      as (cs & ds & Heq & Hds & Hcs & Hpos & Hlen & Hhd).
    + now apply (in_range_between I _ value).
    + destruct neg; lia.
    + rewrite HQ. destruct k as [|k]; cbn [Nat.pred].
      * cbn in Hk. replace (Z.abs value) with 0 by lia. reflexivity.
      * apply Z.div_lt_upper_bound; [lia|]. rewrite Nat2Z.inj_succ, Z.pow_succ_r in Hk by lia. nia.
    + destruct k; [|lia]. cbn [Nat.pred]. cbn in Hk. cbn [length]. lia.
    + cbn [length]. destruct (Z.eqb_spec value 0); cbn [negb orb] in E; [lia|].
      assert (k <> 0)%nat by (intros ->; cbn in Hk; lia). lia.
    + exists (cs ++ [c]), (ds ++ [r]). split; [rewrite Heq, map_app, <- app_assoc; reflexivity|].
      destruct Hds as [F B]. split; [split|].
      * apply Forall2_app; auto.
      * apply Forall_app. split; [assumption|]. constructor; [lia|constructor].
      * split; [apply Forall_app; auto|]. split.
        -- rewrite positional_app by lia. cbn [positional length]. rewrite Hpos, HQ.
           change (radix ^ Z.of_nat 1) with (radix ^ 1). rewrite Z.pow_1_r. cbn. lia.
        -- rewrite app_length. cbn [length] in *. split; [lia|].
           destruct ds as [|d ds]; cbn [app length] in *.
           ++ intros Hr0. cbn [positional] in Hpos. lia.
           ++ intros H0. specialize (Hhd H0). lia.
  - exists [], []. cbn [map app]. split; [reflexivity|]. split; [split; constructor|].
    split; [constructor|]. cbn [positional length]. split; [lia|]. split; [lia|constructor].
Qed.

End CharType1.

(* ------------------------------------------------------------------ *)
(* digit counts *)

Lemma digit_count_step base v n : 2 <= base -> v <> 0 ->
  digit_count base (Z.quot v base) n -> digit_count base v (n + 1).
Proof.
  intros Hb Hv H. pose proof (quot_abs v base ltac:(lia)) as HQ.
  pose proof (Z.div_mod (Z.abs v) base ltac:(lia)) as Hdm.
  pose proof (Z.mod_pos_bound (Z.abs v) base ltac:(lia)) as Hm.
  right. replace (n + 1 - 1) with n by lia. destruct H as [[Hq ->]|[Hn H]].
  - change (base ^ (0 + 1)) with (base ^ 1). rewrite Z.pow_1_r, Z.pow_0_r.
    rewrite Hq in HQ. cbn in HQ. lia.
  - rewrite HQ in H. replace (base ^ n) with (base * base ^ (n - 1)) in *
      by (rewrite <- Z.pow_succ_r by lia; f_equal; lia).
    replace (base ^ (n + 1)) with (base * (base * base ^ (n - 1))).
    2:{ rewrite <- !Z.pow_succ_r by lia. f_equal. lia. }
    split; [lia|]. split; nia.
Qed.

Lemma digit_count_fun base v n m : 2 <= base -> digit_count base v n -> digit_count base v m -> n = m.
Proof.
  intros Hb [[-> ->]|[Hn H]] [[E ->]|[Hm H']]; try reflexivity.
  - pose proof (Z.pow_pos_nonneg base (m - 1)). cbn in H'. lia.
  - subst v. pose proof (Z.pow_pos_nonneg base (n - 1)). cbn in H. lia.
  - destruct (Z.lt_trichotomy n m) as [L|[E|L]]; [|exact E|].
    + pose proof (Z.pow_le_mono_r base n (m - 1)). lia.
    + pose proof (Z.pow_le_mono_r base m (n - 1)). lia.
Qed.

Lemma digit_count_mono base v w n m : 2 <= base -> Z.abs v <= Z.abs w ->
  digit_count base v n -> digit_count base w m -> n <= m.
Proof.
  intros Hb Hle [[-> ->]|[Hn H]] [[E ->]|[Hm H']]; try lia.
  destruct (Z_le_gt_dec n m); [assumption|]. pose proof (Z.pow_le_mono_r base m (n - 1)). lia.
Qed.

Lemma find_msd_loop_spec t base : ity_ok t -> promo t = t -> in_range t base -> 2 <= base ->
  forall fuel k val i, in_range t val -> Z.abs val < 2 ^ Z.of_nat k -> (k < fuel)%nat ->
  exists n, find_msd_loop fuel t val base i = Some (i + n) /\ digit_count base val n.
Proof.
  intros Ht Hp Hb Hb2. induction fuel as [|fuel IH]; intros k val i Hv Hk Hf; [lia|].
  cbn [find_msd_loop]. destruct (Z.eqb_spec val 0) as [->|Hnz]; cbn [negb].
  - exists 0. rewrite Z.add_0_r. split; [reflexivity|left; auto].
  - pose proof (quot_between val base ltac:(lia)) as HQ.
    assert (Hq : in_range t (Z.quot val base)) by now apply (in_range_between t _ val).
    rewrite cdiv_same by (rewrite ?Hp; auto; lia). cbn [obind snd].
    rewrite wrap_id by assumption.
    destruct (IH (Nat.pred k) (Z.quot val base) (i + 1)) as (n & E & Hn); [assumption| | |].
    + rewrite quot_abs by lia. destruct k as [|k]; [cbn in Hk; lia|]. cbn [Nat.pred].
      apply Z.div_lt_upper_bound; [lia|]. rewrite Nat2Z.inj_succ, Z.pow_succ_r in Hk by lia. nia.
    + destruct k; [cbn in Hk|]; lia.
    + exists (n + 1). split; [rewrite E; f_equal; lia|]. now apply digit_count_step.
Qed.

Lemma in_range_abs t v : ity_ok t -> in_range t v -> Z.abs v < 2 ^ Z.of_nat (Z.to_nat (iwidth t)).
Proof.
  intros Ht Hv. pose proof (ity_ok_width t Ht). rewrite Z2Nat.id by lia.
  rewrite in_range_nvb in Hv. unfold nvb in Hv. pose proof (pow2_split (iwidth t) H).
  pose proof (Z.pow_pos_nonneg 2 (iwidth t - 1)). destruct (isigned t); lia.
Qed.

Lemma sp_in_range T v : ity_ok T -> in_range T v -> in_range (strongly_promoted_type T) v.
Proof.
  intros HT Hv. destruct (strongly_promoted_facts T HT) as (_ & _ & _ & _ & _ & E). cbv zeta in E.
  rewrite E. now apply in_range_promo.
Qed.

Lemma sp_base T base : ity_ok T -> 0 <= base -> in_range t_int base ->
  in_range (strongly_promoted_type T) base.
Proof.
  intros HT H0 Hb. destruct (strongly_promoted_facts T HT) as (HS & HW & _).
  apply (in_range_nonneg t_int); auto using t_int_ok.
  unfold nvb at 1. cbn [isigned iwidth t_int]. unfold nvb. destruct (isigned _); lia.
Qed.

Lemma int_find_msd_pos_spec T val base : ity_ok T -> in_range T val -> in_range t_int base -> 2 <= base ->
  exists n, int_find_msd_pos T val base = Some (n - 1) /\ digit_count base val n.
Proof.
  intros HT Hv Hb Hb2. unfold int_find_msd_pos, int_cast_a.
  destruct (strongly_promoted_facts T HT) as (HS & HW & _ & _ & _ & E). cbv zeta in *.
  pose proof (sp_in_range T val HT Hv) as Hv2.
  pose proof (sp_base T base HT ltac:(lia) Hb) as Hb3.
  set (t := strongly_promoted_type T) in *. cbv zeta.
  rewrite !wrap_id by assumption.
  replace (base <=? imax t) with true by (unfold in_range in Hb3; lia).
  destruct (find_msd_loop_spec t base HS ltac:(rewrite E; apply promo_idem) Hb3 Hb2
    (S (Z.to_nat (iwidth t))) (Z.to_nat (iwidth t)) val (-1) Hv2 (in_range_abs t val HS Hv2) ltac:(lia))
    as (n & En & Hn).
  exists n. rewrite En. split; [f_equal; lia|exact Hn].
Qed.

Lemma digit_count_nonneg base v n : digit_count base v n -> 0 <= n.
Proof. intros [[_ ->]|[H _]]; lia. Qed.

(* the number of digits of the longest value of the type *)
Lemma int_max_digits_spec T base : ity_ok T -> in_range t_int base -> 2 <= base ->
  exists n, int_max_digits T base = Some n /\
    (exists v, in_range T v /\ digit_count base v n) /\
    forall v m, in_range T v -> digit_count base v m -> m <= n.
Proof.
  intros HT Hb Hb2. unfold int_max_digits.
  assert (Hmin : in_range T (imin T)) by (unfold in_range, imin, imax; pose proof (pow_nvb_pos T HT);
    unfold nvb in *; destruct (isigned T); lia).
  assert (Hmax : in_range T (imax T)) by (unfold in_range, imin, imax; pose proof (pow_nvb_pos T HT);
    unfold nvb in *; destruct (isigned T); lia).
  destruct (int_find_msd_pos_spec T (imin T) base HT Hmin Hb Hb2) as (p & Ep & Hp).
  destruct (int_find_msd_pos_spec T (imax T) base HT Hmax Hb Hb2) as (q & Eq & Hq).
  rewrite Ep, Eq. cbn [obind]. exists (1 + Z.max (p - 1) (q - 1)). split; [reflexivity|].
  split.
  - destruct (Z_le_gt_dec p q).
    + exists (imax T). split; [assumption|]. replace (1 + _) with q by lia. assumption.
    + exists (imin T). split; [assumption|]. replace (1 + _) with p by lia. assumption.
  - intros v m Hv Hm. assert (m <= p \/ m <= q); [|lia].
    unfold in_range in Hv. destruct (Z_le_gt_dec 0 v).
    + right. apply (digit_count_mono base v (imax T)); auto. lia.
    + left. apply (digit_count_mono base v (imin T)); auto. lia.
Qed.

Section CharType2.
Context {C : Type} (widen : Z -> C).

Lemma format_a_spec I (lower : bool) value radix mnd : ity_ok I -> in_range I value -> 2 <= radix <= 36 ->
  exists m cs ds,
    (if mnd <? 0 then int_max_digits I radix else Some mnd) = Some m /\ 0 <= m /\
    format_a widen I lower value radix mnd =
      Some (Some (map widen (if value <? 0 then 45 :: cs else cs))) /\
    digit_string radix cs ds /\ Forall (case_ok lower) cs /\
    positional radix ds = Z.abs value /\ m <= Z.of_nat (length ds) /\
    match ds with d :: _ => d = 0 -> Z.of_nat (length ds) <= m | [] => True end.
Proof.
  intros HI Hv Hr.
  assert (Hm : exists m, (if mnd <? 0 then int_max_digits I radix else Some mnd) = Some m /\ 0 <= m).
  { destruct (Z.ltb_spec mnd 0); [|eauto].
    destruct (int_max_digits_spec I radix HI ltac:(apply in_range_int_small; lia) ltac:(lia))
      as (n & En & (v & _ & Hd) & _). exists n. split; [assumption|]. eauto using digit_count_nonneg. }
  destruct Hm as (m & Em & Hm0). exists m.
  destruct (strongly_promoted_facts I HI) as (HS & HW & _ & _ & _ & E). cbv zeta in *.
  pose proof (sp_in_range I value HI Hv) as Hv2.
  unfold format_a. rewrite Em. cbn [obind]. unfold int_cast_a.
  set (t := strongly_promoted_type I) in *. rewrite wrap_id by assumption.
  unfold do_format_a. replace ((radix <? 2) || (36 <? radix)) with false by lia.
  assert (Hneg : is_negative t value = (value <? 0)).
  { unfold is_negative. destruct (isigned t) eqn:Es; [reflexivity|].
    pose proof (in_range_unsigned_nonneg t value Es Hv2). lia. }
  rewrite Hneg.
  destruct (format_loop_spec widen t lower (value <? 0) radix m HS ltac:(rewrite E; apply promo_idem) Hr
    (Z.to_nat (iwidth t)) (Z.to_nat (iwidth t) + Z.to_nat m + 1) value [] Hv2)
    as (cs & ds & Heq & Hds & Hcs & Hpos & Hlen & Hhd).
  - destruct (Z.ltb_spec value 0); lia.
  - now apply in_range_abs.
  - lia.
  - cbn [length]. lia.
  - exists cs, ds. split; [reflexivity|]. split; [assumption|]. split.
    + rewrite Heq. cbn [obind]. rewrite app_nil_r. destruct (value <? 0); reflexivity.
    + cbn [length] in *. rewrite Nat.add_0_l in *. tauto.
Qed.

End CharType2.
