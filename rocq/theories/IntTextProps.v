(* Theorems for C39 (integer formatting and parsing) and C43 (digit counts). *)
From Coq Require Import ZArith Lia Bool List ZifyBool.
From Verif Require Import CInt IntModel IntSpec IntProofs IntTextModel IntTextSpec IntTextProofs.
Import ListNotations.
Open Scope Z_scope.

(* which signs the documentation of IntegerParserBase::Sign admits (integer_parser.hpp:48-53) *)
Definition documented_signs (I : ity) (s : sign_mode) : sign_policy :=
  match s, isigned I with
  | SignAccept, _ => AnySign
  | SignAcceptMinus, _ => OnlyMinus
  | SignReject, _ => NoSign
  | SignAuto, true => OnlyMinus
  | SignAuto, false => NoSign
  end.

Lemma documented_signs_policy I s : documented_signs I s = policy I s.
Proof. unfold documented_signs, policy. destruct s, (isigned I); reflexivity. Qed.

(* ---- C43 ---- *)

(* the position of the most significant digit; -1 for zero *)
Theorem find_msd_pos_exact : forall T val base, ity_ok T -> representable T val ->
  2 <= base < 2 ^ 31 ->
  exists p, int_find_msd_pos T val base = Some p /\
    (val = 0 -> p = -1) /\ (val <> 0 -> 0 <= p /\ base ^ p <= Z.abs val < base ^ (p + 1)).
Proof.
  intros T val base HT Hv Hb. apply representable_in_range in Hv.
  assert (Hb' : in_range t_int base) by (unfold in_range, imin, imax; cbn in *; lia).
  destruct (int_find_msd_pos_spec T val base HT Hv Hb' ltac:(lia)) as (n & E & H).
  exists (n - 1). split; [exact E|]. destruct H as [[-> ->]|[Hn H]].
  - split; [reflexivity|congruence].
  - replace (n - 1 + 1) with n by lia. split; [|lia].
    intros ->. pose proof (Z.pow_pos_nonneg base (n - 1)). cbn in H. lia.
Qed.

Theorem num_digits_exact : forall T val base, ity_ok T -> representable T val ->
  2 <= base < 2 ^ 31 ->
  exists n, int_num_digits T val base = Some n /\ digit_count base val n.
Proof.
  intros T val base HT Hv Hb. apply representable_in_range in Hv.
  assert (Hb' : in_range t_int base) by (unfold in_range, imin, imax; cbn in *; lia).
  destruct (int_find_msd_pos_spec T val base HT Hv Hb' ltac:(lia)) as (n & E & H).
  exists n. unfold int_num_digits. rewrite E. cbn [obind]. split; [f_equal; lia|exact H].
Qed.

(* the largest number of digits of any value of the type *)
Theorem max_digits_exact : forall T base, ity_ok T -> 2 <= base < 2 ^ 31 ->
  exists n, int_max_digits T base = Some n /\
    (exists v, representable T v /\ digit_count base v n) /\
    forall v m, representable T v -> digit_count base v m -> m <= n.
Proof.
  intros T base HT Hb.
  assert (Hb' : in_range t_int base) by (unfold in_range, imin, imax; cbn in *; lia).
  destruct (int_max_digits_spec T base HT Hb' ltac:(lia)) as (n & E & (v & Hv & Hd) & H).
  exists n. split; [exact E|]. split.
  - exists v. split; [now apply representable_in_range|assumption].
  - intros w m Hw Hm. apply representable_in_range in Hw. eauto.
Qed.

Example digits_ex :
  int_find_msd_pos (ITy 8 true) (-128) 10 = Some 2 /\ int_num_digits (ITy 64 false) (2 ^ 64 - 1) 10 = Some 20 /\
  int_max_digits (ITy 8 true) 2 = Some 8 /\ int_max_digits (ITy 64 true) 10 = Some 19 /\
  int_num_digits (ITy 32 true) 0 10 = Some 0.
Proof. vm_compute. auto 10. Qed.

(* ---- C39 ---- *)

(* Parsing never hits undefined behaviour, stores v and reports success exactly when
   the string is a numeral of value v representable in the type, and otherwise leaves
   the target untouched. *)
Theorem parse_exact : forall (C : Type) (narrow : C -> Z) I radix sign (s : list C) var,
  ity_ok I -> 2 <= radix <= 36 ->
  (exists v, numeral (documented_signs I sign) radix (map narrow s) v /\ representable I v /\
     parse narrow I radix sign s var = Some (true, v)) \/
  ((forall v, numeral (documented_signs I sign) radix (map narrow s) v -> ~ representable I v) /\
     parse narrow I radix sign s var = Some (false, var)).
Proof.
  intros C narrow I radix sign s var HI Hr. rewrite documented_signs_policy.
  destruct (parse_spec narrow I radix sign s var HI Hr) as (r & E & H). destruct r as [v|].
  - left. exists v. destruct (H v) as [H1 _]. destruct (H1 eq_refl) as [Hn Hv].
    split; [assumption|]. split; [now apply representable_in_range|exact E].
  - right. split; [|exact E]. intros v Hn Hv. apply representable_in_range in Hv.
    destruct (H v) as [_ H2]. discriminate H2. auto.
Qed.

(* the value of a numeral is unique, so the theorem above determines the result *)
Theorem numeral_value_unique : forall pol radix s v w,
  numeral pol radix s v -> numeral pol radix s w -> v = w.
Proof.
  assert (U : forall radix cs d1 d2, digit_string radix cs d1 -> digit_string radix cs d2 -> d1 = d2).
  { intros radix cs d1 d2 [F1 _] [F2 _]. revert d2 F2. induction F1; intros d2 F2; inversion F2; subst.
    - reflexivity.
    - f_equal; eauto using digit_char_fun. }
  assert (N1 : forall radix cs ds, ~ digit_string radix (43 :: cs) ds)
    by (intros ? ? ? [F _]; inversion F as [|? ? ? ? D]; apply digit_char_not_sign in D; lia).
  assert (N2 : forall radix cs ds, ~ digit_string radix (45 :: cs) ds)
    by (intros ? ? ? [F _]; inversion F as [|? ? ? ? D]; apply digit_char_not_sign in D; lia).
  intros pol radix s v w (d1 & _ & H1) (d2 & _ & H2).
  destruct H1 as [[A1 E1]|[(c1 & S1 & _ & A1 & E1)|(c1 & S1 & _ & A1 & E1)]];
  destruct H2 as [[A2 E2]|[(c2 & S2 & _ & A2 & E2)|(c2 & S2 & _ & A2 & E2)]]; subst;
  try (exfalso; (eapply N1; eassumption) || (eapply N2; eassumption));
  try (inversion S2; subst); try (rewrite (U _ _ _ _ A1 A2); reflexivity).
Qed.

(* Formatting never hits undefined behaviour.  The result is a minus sign for negative
   values, followed by the digits, in the requested case, of the absolute value; there
   are at least as many digits as requested (the type's maximum number of digits if the
   request is negative), and no leading zeros beyond that number. *)
Theorem format_exact : forall (C : Type) (widen : Z -> C) I (lower : bool) value radix mnd,
  ity_ok I -> representable I value -> 2 <= radix <= 36 ->
  exists m cs ds,
    (0 <= mnd -> m = mnd) /\
    (mnd < 0 -> (exists v, representable I v /\ digit_count radix v m) /\
                forall v k, representable I v -> digit_count radix v k -> k <= m) /\
    format_a widen I lower value radix mnd =
      Some (Some (map widen ((if value <? 0 then [45] else []) ++ cs))) /\
    digit_string radix cs ds /\ positional radix ds = Z.abs value /\
    Forall (fun c => if lower then ~ (65 <= c <= 90) else ~ (97 <= c <= 122)) cs /\
    m <= Z.of_nat (length cs) /\
    (forall ds', ds = 0 :: ds' -> Z.of_nat (length cs) <= m).
Proof.
  intros C widen I lower value radix mnd HI Hv Hr. apply representable_in_range in Hv.
  destruct (format_a_spec widen I lower value radix mnd HI Hv Hr)
    as (m & cs & ds & Em & Hm0 & E & Hds & Hcs & Hpos & Hlen & Hhd).
  assert (Hl : length cs = length ds) by (destruct Hds as [F _]; clear - F; induction F; cbn; congruence).
  exists m, cs, ds. split; [|split; [|split; [|split; [assumption|split; [assumption|split; [assumption|]]]]]].
  - intros. replace (mnd <? 0) with false in Em by lia. congruence.
  - intros. replace (mnd <? 0) with true in Em by lia.
    assert (Hb' : in_range t_int radix) by (apply in_range_int_small; lia).
    destruct (int_max_digits_spec I radix HI Hb' ltac:(lia)) as (n & En & (v & Hv' & Hd) & H').
    assert (n = m) by congruence. subst n. split.
    + exists v. split; [now apply representable_in_range|assumption].
    + intros w k Hw Hk. apply representable_in_range in Hw. eauto.
  - rewrite E. destruct (value <? 0); reflexivity.
  - rewrite Hl. split; [assumption|]. intros ds' ->. auto.
Qed.

(* Round trip: for every character mapper that maps the digits and the minus sign back
   to themselves.  A zero formatted with no digits at all is the documented exception. *)
Theorem format_parse_round_trip : forall (C : Type) (widen : Z -> C) (narrow : C -> Z)
    I (lower : bool) sign value radix mnd var,
  (forall c, (48 <= c <= 57 \/ 65 <= c <= 90 \/ 97 <= c <= 122 \/ c = 45) -> narrow (widen c) = c) ->
  ity_ok I -> representable I value -> 2 <= radix <= 36 ->
  (value = 0 -> mnd <> 0) -> (value < 0 -> sign <> SignReject) ->
  exists s, format_a widen I lower value radix mnd = Some (Some s) /\
    parse narrow I radix sign s var = Some (true, value).
Proof.
  intros C widen narrow I lower sign value radix mnd var Hnw HI Hv Hr Hz Hsg.
  pose proof Hv as Hv'. apply representable_in_range in Hv'.
  destruct (format_a_spec widen I lower value radix mnd HI Hv' Hr)
    as (m & cs & ds & Em & Hm0 & E & Hds & Hcs & Hpos & Hlen & Hhd).
  exists (map widen (if value <? 0 then 45 :: cs else cs)). split; [exact E|].
  assert (Hmap : map narrow (map widen (if value <? 0 then 45 :: cs else cs)) =
                 (if value <? 0 then 45 :: cs else cs)).
  { assert (Hc : map narrow (map widen cs) = cs).
    { destruct Hds as [F _]. clear - F Hnw. induction F as [|c d cs ds Hd _ IH]; [reflexivity|].
      cbn [map]. rewrite IH, Hnw; [reflexivity|]. unfold digit_char in Hd. lia. }
    destruct (value <? 0); [|exact Hc]. cbn [map]. rewrite Hc, Hnw by lia. reflexivity. }
  assert (Hne : ds <> []).
  { intros ->. cbn [positional length] in *. assert (value = 0) by lia. specialize (Hz H).
    assert (m = 0) by lia. subst m. destruct (Z.ltb_spec mnd 0); [|congruence].
    destruct (int_max_digits_spec I radix HI ltac:(apply in_range_int_small; lia) ltac:(lia))
      as (n & En & _ & Hall).
    assert (n = 0) by congruence. subst n.
    assert (H1 : in_range I 1).
    { pose proof (pow_nvb_pos I HI). rewrite in_range_nvb. destruct (isigned I); lia. }
    specialize (Hall 1 1 H1). enough (1 <= 0) by lia. apply Hall. right. cbn [Z.abs].
    change (1 - 1) with 0. rewrite Z.pow_1_r. cbn. lia. }
  assert (Hnum : numeral (documented_signs I sign) radix
      (map narrow (map widen (if value <? 0 then 45 :: cs else cs))) value).
  { rewrite Hmap. exists ds. split; [exact Hne|]. destruct (Z.ltb_spec value 0).
    - right. right. exists cs. split; [reflexivity|]. split; [|split; [exact Hds|lia]].
      unfold documented_signs. specialize (Hsg H). unfold representable in Hv.
      destruct sign, (isigned I); try congruence; lia.
    - left. split; [exact Hds|lia]. }
  destruct (parse_exact C narrow I radix sign (map widen (if value <? 0 then 45 :: cs else cs)) var HI Hr)
    as [(v & Hn & _ & Hp)|[Hno _]].
  - rewrite Hp. rewrite (numeral_value_unique _ _ _ _ _ Hn Hnum). reflexivity.
  - now destruct (Hno value Hnum).
Qed.

Definition idc (c : Z) : Z := c.
(* "-80" in radix 16 into and out of an 8 bit signed integer; "ff" and "FF" into an
   8 bit unsigned one; "100" does not fit; "+7" only with Sign::accept *)
Example int_text_ex :
  format_a idc (ITy 8 true) false (-128) 16 1 = Some (Some [45; 56; 48]) /\
  parse idc (ITy 8 true) 16 SignAuto [45; 56; 48] 5 = Some (true, -128) /\
  parse idc (ITy 8 true) 16 SignAuto [56; 48] 5 = Some (false, 5) /\
  parse idc (ITy 8 false) 16 SignAuto [102; 70] 5 = Some (true, 255) /\
  parse idc (ITy 8 false) 16 SignAuto [49; 48; 48] 5 = Some (false, 5) /\
  parse idc (ITy 8 false) 10 SignAccept [43; 55] 5 = Some (true, 7) /\
  parse idc (ITy 8 false) 10 SignAuto [43; 55] 5 = Some (false, 5) /\
  parse idc (ITy 8 false) 10 SignAccept [45; 48] 5 = Some (true, 0) /\
  format_a idc (ITy 8 false) true 10 2 (-1) = Some (Some [48; 48; 48; 48; 49; 48; 49; 48]) /\
  format_a idc (ITy 32 true) true 35 36 3 = Some (Some [48; 48; 122]) /\
  format_a idc (ITy 32 true) true 0 10 0 = Some (Some []).
Proof. vm_compute. repeat split. Qed.

(* FINDING: an unsupported radix is meant to be reported by std::invalid_argument, and is
   when min_num_digits is not negative, but with a negative min_num_digits the maximum
   number of digits is computed first: radix 0 divides by zero there. *)
Theorem format_unsupported_radix_refuted : forall (C : Type) (widen : Z -> C) I value,
  ity_ok I ->
  format_a widen I false value 0 1 = Some None /\ format_a widen I false value 0 (-1) = None.
Proof.
  intros C widen I value HI. split; [reflexivity|].
  unfold format_a. change (-1 <? 0) with true. cbv iota.
  assert (H : int_find_msd_pos I (imax I) 0 = None).
  { unfold int_find_msd_pos, int_cast_a.
    destruct (strongly_promoted_facts I HI) as (HS & HW & _ & _ & _ & E). cbv zeta in *.
    assert (Hm : in_range I (imax I)) by (unfold in_range, imin, imax; pose proof (pow_nvb_pos I HI);
      unfold nvb in *; destruct (isigned I); lia).
    pose proof (sp_in_range I (imax I) HI Hm) as Hv2.
    set (t := strongly_promoted_type I) in *.
    rewrite (wrap_id t 0) by auto using in_range_0. rewrite wrap_id by assumption.
    replace (0 <=? imax t) with true by (pose proof (in_range_0 t HS) as X; unfold in_range in X; lia).
    cbn [find_msd_loop]. pose proof (pow_nvb_pos I HI). rewrite imax_nvb.
    replace (2 ^ nvb I - 1 =? 0) with false by lia. cbn [negb].
    unfold cdiv. cbn [fst snd]. rewrite (wrap_id (uac t t) 0).
    - reflexivity.
    - rewrite uac_same. now apply promo_ok.
    - rewrite uac_same. apply in_range_0. now apply promo_ok. }
  unfold int_max_digits. destruct (int_find_msd_pos I (imin I) 0); [|reflexivity].
  cbn [obind]. rewrite H. reflexivity.
Qed.

Print Assumptions find_msd_pos_exact.
Print Assumptions num_digits_exact.
Print Assumptions max_digits_exact.
Print Assumptions parse_exact.
Print Assumptions numeral_value_unique.
Print Assumptions format_exact.
Print Assumptions format_parse_round_trip.
Print Assumptions format_unsupported_radix_refuted.
