From Coq Require Import ZArith Lia Bool List ZifyBool.
From Verif Require Import CInt IntModel IntSpec IntProofs.
Import ListNotations.
Open Scope Z_scope.

Lemma in_range_1 t : ity_ok t -> in_range t 1.
Proof.
  intros H. pose proof (pow_nvb_pos t H). rewrite in_range_nvb. destruct (isigned t); lia.
Qed.

Lemma sp_type_eq A : ity_ok A -> strongly_promoted_type A = promo A.
Proof. intros H. now destruct (strongly_promoted_facts A H) as (_ & _ & _ & _ & _ & ?). Qed.

Lemma int_is_even_spec T v : ity_ok T -> in_range T v -> int_is_even T v = Z.even v.
Proof.
  intros HT Hv. unfold int_is_even, int_cast_a. rewrite sp_type_eq by assumption.
  pose proof (promo_ok T HT). pose proof (in_range_promo T v HT Hv).
  unfold cand. cbn [fst snd]. rewrite uac_same, promo_idem.
  rewrite !(wrap_id (promo T) v), (wrap_id (promo T) 1) by auto using in_range_1.
  change (Z.land v 1) with (Z.land v (Z.ones 1)). rewrite Z.land_ones by lia.
  change (2 ^ 1) with 2. rewrite wrap_id.
  - rewrite Zmod_even. destruct (Z.even v); reflexivity.
  - assumption.
  - pose proof (Z.mod_pos_bound v 2). pose proof (in_range_1 (promo T) H).
    pose proof (in_range_0 (promo T) H). unfold in_range in *. lia.
Qed.

(* ------------------------------------------------------------------ *)
(* exponentiation *)

Lemma out_of_range_mono t x c : ity_ok t -> ~ in_range t x -> 1 <= c -> ~ in_range t (x * c).
Proof.
  intros Ht Hx Hc. pose proof (in_range_0 t Ht). unfold in_range in *. nia.
Qed.

Lemma out_of_range_square t b c : ity_ok t -> ~ in_range t (b * b) ->
  (1 <= c \/ c <= -2) -> ~ in_range t (b * b * c).
Proof.
  intros Ht Hx Hc. pose proof (pow_nvb_pos t Ht). rewrite in_range_nvb in *.
  assert (0 <= b * b) by nia.
  destruct (isigned t); nia.
Qed.

Lemma pow_abs_ge2 l n : 2 <= Z.abs l -> 1 <= n -> 2 <= Z.abs (l ^ n).
Proof.
  intros Hl Hn. rewrite Z.abs_pow. change 2 with (2 ^ 1) at 1.
  transitivity (2 ^ n); [apply Z.pow_le_mono_r; lia|].
  apply Z.pow_le_mono_l. lia.
Qed.

Lemma even_pow_ge1 l m k : l <> 0 -> 0 <= m -> 0 <= k -> 1 <= l ^ (m * (2 * k)).
Proof.
  intros Hl Hm Hk. replace (m * (2 * k)) with (2 * (m * k)) by ring.
  rewrite Z.pow_mul_r by nia. 
  assert (0 < l ^ 2) by (rewrite Z.pow_2_r; nia).
  pose proof (Z.pow_pos_nonneg (l ^ 2) (m * k)). nia.
Qed.

Lemma pow_loop_spec B E l : ity_ok B -> ity_ok E -> promo E = E -> 
  forall fuel n m exp,
  0 <= n -> 1 <= m -> 0 <= exp < 2 ^ Z.of_nat fuel -> (0 < fuel)%nat ->
  in_range E exp -> in_range B (l ^ n) -> in_range B (l ^ m) ->
  let N := l ^ (n + m * exp) in
  (try_int_pow_loop fuel B E (l ^ n) (l ^ m) exp = Some (Some N) /\ in_range B N) \/
  (try_int_pow_loop fuel B E (l ^ n) (l ^ m) exp = Some None /\ ~ in_range B N).
Proof.
  intros HB HE HPE. induction fuel as [|fuel IH]; intros n m exp Hn Hm Hexp Hf HeE HrB HbB N; [lia|].
  cbn [try_int_pow_loop].
  assert (HsE : cshr (E, exp) 1 = Some (E, exp / 2)).
  { unfold cshr. cbn [fst snd]. rewrite HPE. pose proof (promo_width E) as Hw. rewrite HPE in Hw.
    replace (0 <=? 1) with true by lia. replace (1 <? iwidth E) with true by lia. cbn [andb].
    rewrite Z.shiftr_div_pow2 by lia. reflexivity. }
  assert (HhE : in_range E (exp / 2)).
  { pose proof (in_range_0 E HE). unfold in_range in *.
    assert (0 <= exp / 2 <= exp) by (split; [apply Z.div_pos; lia|apply Z.div_le_upper_bound; lia]).
    lia. }
  assert (Hcont : forall n', 0 <= n' -> in_range B (l ^ n') ->
     n' + m * (2 * (exp / 2)) = n + m * exp ->
     (exp / 2 <> 0 -> 0 < n' \/ n' = 0) ->
     let c := (let* e := cshr (E, exp) 1 in
      let exp := wrap E (snd e) in
      if exp =? 0 then Some (Some (l ^ n'))
      else
        let* p := try_int_mul B B (l ^ m) (l ^ m) in
        if fst p then try_int_pow_loop fuel B E (l ^ n') (snd p) exp
        else Some None) in
     (c = Some (Some N) /\ in_range B N) \/ (c = Some None /\ ~ in_range B N)).
  { intros n' Hn' Hr' Heq _. cbv zeta. rewrite HsE. cbn [obind snd].
    rewrite wrap_id by assumption.
    destruct (Z.eqb_spec (exp / 2) 0) as [Hz|Hz].
    - left. assert (N = l ^ n') as -> by (unfold N; rewrite <- Heq, Hz; f_equal; lia).
      split; [reflexivity|assumption].
    - assert (1 <= exp / 2) by (pose proof (Z.div_pos exp 2); lia).
      rewrite try_int_mul_spec by assumption. unfold add_res.
      destruct (in_rangeb B (l ^ m * l ^ m)) eqn:Hsq; cbn [obind fst snd].
      + apply in_rangeb_spec in Hsq. rewrite <- Z.pow_add_r in * by lia.
        assert (HN : N = l ^ (n' + (m + m) * (exp / 2))) by (unfold N; f_equal; lia).
        rewrite HN. apply IH; auto; try lia.
        * split; [lia|]. apply Z.div_lt_upper_bound; [lia|].
          rewrite <- Z.pow_succ_r by lia. rewrite Nat2Z.inj_succ in Hexp. lia.
        * destruct fuel; [|lia]. cbn in Hexp. exfalso.
          assert (exp / 2 < 1) by (apply Z.div_lt_upper_bound; lia). lia.
      + right. split; [reflexivity|]. apply in_rangeb_false in Hsq.
        assert (Hl : 2 <= Z.abs l).
        { destruct (Z_lt_le_dec (Z.abs l) 2); [|assumption]. exfalso. apply Hsq.
          assert (l = 0 \/ l = 1 \/ l = -1) as [->|[->| ->]] by lia.
          - rewrite Z.pow_0_l by lia. now apply in_range_0.
          - rewrite Z.pow_1_l by lia. now apply in_range_1.
          - replace ((-1) ^ m * (-1) ^ m) with 1; [now apply in_range_1|].
            rewrite <- Z.pow_add_r by lia. replace (m + m) with (2 * m) by lia.
            rewrite Z.pow_mul_r by lia. change ((-1) ^ 2) with 1. now rewrite Z.pow_1_l by lia. }
        assert (HN : N = l ^ m * l ^ m * (l ^ n' * l ^ (m * (2 * (exp / 2 - 1))))).
        { unfold N. rewrite <- !Z.pow_add_r by nia. f_equal. lia. }
        rewrite HN. apply out_of_range_square; [assumption|assumption|].
        pose proof (even_pow_ge1 l m (exp / 2 - 1) ltac:(lia) ltac:(lia) ltac:(lia)).
        destruct (Z.eq_dec n' 0) as [->|Hn0].
        * rewrite Z.pow_0_r. left. lia.
        * pose proof (pow_abs_ge2 l n' Hl ltac:(lia)).
          destruct (Z_lt_le_dec (l ^ n') 0); [right|left]; nia. }
  cbv zeta in Hcont.
  unfold int_is_odd. rewrite int_is_even_spec by assumption.
  destruct (Z.even exp) eqn:Hev; cbn [negb].
  - apply Z.even_spec in Hev. destruct Hev as [k Hk].
    assert (exp / 2 = k) by (subst exp; rewrite Z.mul_comm, Z.div_mul; lia).
    apply Hcont; auto; [|lia]. rewrite H. lia.
  - assert (Hod : Z.odd exp = true) by (rewrite <- Z.negb_even, Hev; reflexivity).
    apply Z.odd_spec in Hod. destruct Hod as [k Hk].
    assert (exp / 2 = k).
    { subst exp. replace (2 * k + 1) with (1 + k * 2) by lia. rewrite Z.div_add by lia. reflexivity. }
    rewrite try_int_mul_spec by assumption. unfold add_res.
    rewrite <- Z.pow_add_r by lia.
    destruct (in_rangeb B (l ^ (n + m))) eqn:Hr; cbn [obind fst snd].
    + apply in_rangeb_spec in Hr. apply Hcont; auto; [lia| |lia]. rewrite H. nia.
    + right. split; [reflexivity|]. apply in_rangeb_false in Hr.
      assert (Hl0 : l <> 0).
      { intros ->. apply Hr. rewrite Z.pow_0_l by lia. now apply in_range_0. }
      assert (HN : N = l ^ (n + m) * l ^ (m * (2 * k))).
      { unfold N. rewrite <- Z.pow_add_r by nia. f_equal. nia. }
      rewrite HN. apply out_of_range_mono; auto. apply even_pow_ge1; lia.
Qed.

Lemma not_in_range_promo t v : ity_ok t -> ~ in_range (promo t) v -> ~ in_range t v.
Proof. intros Ht H Hc. apply H. now apply in_range_promo. Qed.

Lemma try_int_pow_nonneg L R l r : ity_ok L -> ity_ok R -> in_range L l -> in_range R r ->
  0 <= r -> try_int_pow L R l r = add_res L l (l ^ r).
Proof.
  intros HL HR Hl Hr Hr0. unfold try_int_pow, int_cast_a.
  rewrite !sp_type_eq by assumption.
  pose proof (promo_ok L HL) as HPL. pose proof (promo_ok R HR) as HPR.
  pose proof (in_range_promo L l HL Hl). pose proof (in_range_promo R r HR Hr).
  rewrite !wrap_id by assumption.
  replace (is_negative (promo R) r) with false
    by (unfold is_negative; destruct (isigned (promo R)); lia).
  cbn [negb].
  assert (Hw := promo_width R).
  destruct (pow_loop_spec (promo L) (promo R) l HPL HPR (promo_idem R)
              (Z.to_nat (iwidth (promo R))) 0 1 r) as [[E Hin]|[E Hout]];
    rewrite ?Z.pow_0_r, ?Z.pow_1_r in *; auto using in_range_1; try lia.
  - split; [lia|]. rewrite Z2Nat.id by lia.
    rewrite in_range_nvb in H0. destruct H0 as [_ H0].
    eapply Z.lt_le_trans; [exact H0|]. apply Z.pow_le_mono_r; [lia|].
    unfold nvb. destruct (isigned (promo R)); lia.
  - rewrite E. cbn [obind]. replace (0 + 1 * r) with r in * by lia.
    rewrite try_int_cast_spec by assumption. unfold add_res.
    destruct (in_rangeb L (l ^ r)); reflexivity.
  - rewrite E. cbn [obind]. replace (0 + 1 * r) with r in * by lia.
    rewrite add_res_false; [reflexivity|]. now apply not_in_range_promo.
Qed.

Lemma quot_1_abs b : 2 <= Z.abs b -> Z.quot 1 b = 0.
Proof.
  intros H. destruct (Z_lt_le_dec b 0).
  - replace b with (- (- b)) by lia. rewrite Z.quot_opp_r by lia.
    rewrite Z.quot_small by lia. reflexivity.
  - apply Z.quot_small. lia.
Qed.

Lemma m1_pow n : 0 <= n -> (-1) ^ n = if Z.even n then 1 else -1.
Proof.
  intros Hn. destruct (Z.even n) eqn:E.
  - apply Z.even_spec in E. destruct E as [k ->]. rewrite Z.pow_mul_r by lia.
    change ((-1) ^ 2) with 1. apply Z.pow_1_l. lia.
  - assert (Z.odd n = true) as Ho by (rewrite <- Z.negb_even, E; reflexivity).
    apply Z.odd_spec in Ho. destruct Ho as [k ->]. rewrite Z.pow_add_r by lia.
    rewrite Z.pow_mul_r by lia. change ((-1) ^ 2) with 1. rewrite Z.pow_1_l by lia. reflexivity.
Qed.

Lemma try_int_pow_neg L R l r : ity_ok L -> ity_ok R -> in_range L l -> in_range R r ->
  r < 0 ->
  try_int_pow L R l r = if l =? 0 then Some (false, l) else add_res L l (Z.quot 1 (l ^ (- r))).
Proof.
  intros HL HR Hl Hr Hr0. unfold try_int_pow, int_cast_a.
  rewrite !sp_type_eq by assumption.
  pose proof (promo_ok L HL) as HPL. pose proof (promo_ok R HR) as HPR.
  pose proof (in_range_promo L l HL Hl). pose proof (in_range_promo R r HR Hr).
  rewrite !(wrap_id (promo R)) by assumption.
  rewrite !(wrap_id (promo L) l) by assumption.
  assert (SR : isigned (promo R) = true).
  { destruct (isigned (promo R)) eqn:E; [reflexivity|].
    apply in_range_unsigned_nonneg in H0; [lia|assumption]. }
  unfold is_negative. rewrite SR. replace (r <? 0) with true by lia. cbn [negb].
  destruct (Z.eqb_spec l 0) as [->|Hl0]; [reflexivity|].
  assert (in_range t_int (-1)) by (rewrite in_range_nvb; cbn; lia).
  rewrite int_equal_spec by (auto; exact t_int_ok).
  rewrite int_is_even_spec by assumption.
  set (b := if (l =? -1) && Z.even r then 1 else l).
  assert (Hb : in_range (promo L) b).
  { unfold b. destruct (_ && _); auto using in_range_1. }
  assert (Hb0 : b <> 0) by (unfold b; destruct (_ && _); lia).
  assert (Hq : Z.quot 1 b = Z.quot 1 (l ^ (- r))).
  { destruct (Z_lt_le_dec (Z.abs l) 2).
    - assert (l = 1 \/ l = -1) as [-> | ->] by lia.
      + rewrite Z.pow_1_l by lia. reflexivity.
      + rewrite m1_pow by lia. unfold b. cbn [Z.eqb Pos.eqb andb].
        rewrite Z.even_opp. destruct (Z.even r); reflexivity.
    - rewrite !quot_1_abs; [reflexivity| |].
      + apply pow_abs_ge2; lia.
      + unfold b. replace (l =? -1) with false by lia. assumption. }
  assert (Hqr : in_range (promo L) (Z.quot 1 b)).
  { destruct (Z_lt_le_dec (Z.abs b) 2).
    - assert (b = 1 \/ b = -1) as [E|E] by lia; rewrite E.
      + apply in_range_1; assumption.
      + change (Z.quot 1 (-1)) with (-1). now rewrite <- E.
    - rewrite quot_1_abs by assumption. now apply in_range_0. }
  rewrite cdiv_same by (rewrite ?promo_idem; auto using in_range_1).
  cbn [obind snd]. rewrite wrap_id by assumption.
  rewrite try_int_cast_spec by assumption. rewrite Hq. unfold add_res.
  destruct (in_rangeb L _); reflexivity.
Qed.

(* ------------------------------------------------------------------ *)
(* arithmetic left shift *)

Lemma try_int_arith_shift_left_spec T l i : ity_ok T -> in_range T l -> 0 <= l -> 0 <= i ->
  try_int_arith_shift_left T l i = add_res T l (l * 2 ^ i).
Proof.
  intros HT Hl Hl0 Hi. unfold try_int_arith_shift_left.
  unfold int_greater_equal. rewrite int_less_spec;
    [|assumption|exact t_int_ok|assumption|apply in_range_0; exact t_int_ok].
  replace (l <? 0) with false by lia. cbn [negb]. replace (i <? 0) with false by lia.
  pose proof (promo_nvb_ge T). pose proof (promo_ok T HT) as HP.
  assert (Hmx : 0 < imax T) by (rewrite imax_nvb; pose proof (pow_nvb_pos T HT); lia).
  assert (0 < 2 ^ i) by (apply Z.pow_pos_nonneg; lia).
  destruct (Z.ltb_spec i (nvb (promo T))).
  - assert (i < iwidth (promo T)) by (unfold nvb in *; destruct (isigned (promo T)); lia).
    unfold cshr, cshl. cbn [fst snd].
    replace (0 <=? i) with true by lia. replace (i <? iwidth (promo T)) with true by lia.
    cbn [andb obind]. rewrite Z.shiftr_div_pow2 by lia.
    assert (Hd : in_range T (imax T / 2 ^ i)).
    { assert (0 <= imax T / 2 ^ i <= imax T).
      { split; [apply Z.div_pos; lia|]. apply Z.div_le_upper_bound; nia. }
      pose proof (in_range_0 T HT). unfold in_range in *. lia. }
    unfold cge. rewrite crel_promo_l; auto using in_range_promo. rewrite Z.geb_leb.
    pose proof (div_le_iff (imax T) (2 ^ i) l ltac:(lia)).
    destruct (Z.leb_spec l (imax T / 2 ^ i)); cbn [obind snd].
    + assert (in_range T (l * 2 ^ i)).
      { pose proof (in_range_0 T HT). unfold in_range in *. nia. }
      rewrite Z.shiftl_mul_pow2 by lia. rewrite add_res_true by assumption.
      rewrite wrap_wrap by auto using promo_width_ge. now rewrite wrap_id.
    + rewrite add_res_false; [reflexivity|]. unfold in_range. lia.
  - destruct (Z.eqb_spec l 0).
    + subst. cbn. rewrite add_res_true; auto using in_range_0.
    + rewrite add_res_false; [reflexivity|]. rewrite in_range_nvb.
      assert (2 ^ nvb T <= 2 ^ i) by (apply Z.pow_le_mono_r; lia). nia.
Qed.

(* ------------------------------------------------------------------ *)
(* division *)

Lemma int_divmod_spec t a b : ity_ok t -> promo t = t -> in_range t a -> in_range t b ->
  0 <= a -> 0 < b -> int_divmod t a b = Some (a / b, a mod b).
Proof.
  intros Ht Hp Ha Hb Ha0 Hb0. unfold int_divmod, int_cast_a.
  rewrite sp_type_eq, Hp by assumption. rewrite !wrap_id by assumption.
  assert (Hq : Z.quot a b = a / b) by (apply Z.quot_div_nonneg; lia).
  assert (Hr : Z.rem a b = a mod b) by (apply Z.rem_mod_nonneg; lia).
  assert (Hqr : in_range t (a / b)).
  { assert (0 <= a / b <= a) by (split; [apply Z.div_pos; lia|apply Z.div_le_upper_bound; nia]).
    pose proof (in_range_0 t Ht). unfold in_range in *. lia. }
  assert (Hrr : in_range t (a mod b)).
  { pose proof (Z.mod_pos_bound a b Hb0). pose proof (in_range_0 t Ht).
    unfold in_range in *. lia. }
  rewrite cdiv_same, crem_same by (rewrite ?Hp, ?Hq; auto; lia).
  cbn [obind snd]. rewrite Hq, Hr, !wrap_id by assumption. reflexivity.
Qed.

Lemma is_negative_false t v : 0 <= v -> is_negative t v = false.
Proof. unfold is_negative. destruct (isigned t); lia. Qed.

Lemma int_div_round_up_spec T U a b : ity_ok T -> ity_ok U -> in_range T a -> in_range U b ->
  0 <= a -> 0 < b -> int_div_round_up T U a b = Some (- (- a / b)).
Proof.
  intros HT HU Ha Hb Ha0 Hb0. unfold int_div_round_up, int_cast_a.
  rewrite !is_negative_false by lia. cbn [orb].
  destruct (promo_common_facts T U HT HU) as (H1 & H2 & H3 & H4 & H5 & H6 & H7 & H8).
  set (ty := promo (common2 T U)) in *.
  assert (Ha' : in_range ty a) by eauto using in_range_nonneg.
  assert (Hb' : in_range ty b) by (apply (in_range_nonneg U); auto; lia).
  rewrite !wrap_id by assumption. rewrite int_divmod_spec by assumption. cbn [obind fst snd].
  pose proof (Z.div_mod a b ltac:(lia)). pose proof (Z.mod_pos_bound a b Hb0).
  assert (0 <= a / b <= a) by (split; [apply Z.div_pos; lia|apply Z.div_le_upper_bound; nia]).
  pose proof (in_range_0 T HT).
  destruct (Z.eqb_spec (a mod b) 0); cbn [negb].
  - rewrite wrap_id; [|assumption|unfold in_range in *; lia].
    f_equal. rewrite Z.div_opp_l_z by lia. lia.
  - assert (Hs : in_range T (a / b + 1)).
    { assert (a / b + 1 <= a); [|unfold in_range in *; lia].
      destruct (Z.eq_dec b 1); [subst; rewrite Z.mod_1_r in *; lia|]. nia. }
    unfold cadd. rewrite cbin_same; auto using in_range_1.
    + rewrite H2, norm_in; auto; [|apply (in_range_nonneg T); auto; lia].
      cbn [obind snd]. rewrite wrap_id by assumption.
      f_equal. rewrite Z.div_opp_l_nz by lia. lia.
    + apply (in_range_nonneg T); auto; [lia|]. unfold in_range in *; lia.
Qed.

(* nearest integer to a/b, ties downwards *)
Lemma int_div_round_half_down_spec T U a b : ity_ok T -> ity_ok U ->
  in_range T a -> in_range U b -> 0 <= a -> 0 < b ->
  exists q, int_div_round_half_down T U a b = Some q /\
            - b < 2 * (a - q * b) <= b.
Proof.
  intros HT HU Ha Hb Ha0 Hb0. unfold int_div_round_half_down, int_cast_a.
  rewrite !is_negative_false by lia. cbn [orb].
  destruct (promo_common_facts T U HT HU) as (H1 & H2 & H3 & H4 & H5 & H6 & H7 & H8).
  set (ty := promo (common2 T U)) in *.
  assert (Ha' : in_range ty a) by eauto using in_range_nonneg.
  assert (Hb' : in_range ty b) by (apply (in_range_nonneg U); auto; lia).
  rewrite !wrap_id by assumption. rewrite int_divmod_spec by assumption. cbn [obind fst snd].
  pose proof (Z.div_mod a b ltac:(lia)). pose proof (Z.mod_pos_bound a b Hb0).
  assert (0 <= a / b <= a) by (split; [apply Z.div_pos; lia|apply Z.div_le_upper_bound; nia]).
  pose proof (in_range_0 T HT).
  assert (Hh : cdiv (U, b) (t_int, 2) = Some (uac U t_int, b / 2)).
  { unfold cdiv. cbn [fst snd]. pose proof (uac_ok U t_int HU t_int_ok).
    assert (Hwu : in_range (uac U t_int) b /\ in_range (uac U t_int) 2).
    { pose proof (in_range_promo U b HU Hb) as Hpb. pose proof (promo_width U) as Hpw.
      unfold uac. change (promo t_int) with t_int. cbn [isigned t_int].
      change (iwidth t_int) with 32.
      assert (in_range (promo U) 2).
      { apply (in_range_nonneg (ITy 31 false)); [unfold ity_ok; cbn; lia| |lia|].
        - unfold nvb. cbn. destruct (isigned (promo U)); lia.
        - rewrite in_range_nvb; cbn; lia. }
      destruct (isigned (promo U)) eqn:SU; cbn [Bool.eqb].
      - replace (32 <=? iwidth (promo U)) with true by lia. auto.
      - replace (iwidth (promo U) <? 32) with false by lia. auto. }
    rewrite !wrap_id by tauto. cbn [Z.eqb].
    rewrite Z.quot_div_nonneg by lia. apply norm_in; [|assumption].
    assert (0 <= b / 2 <= b) by (split; [apply Z.div_pos; lia|apply Z.div_le_upper_bound; lia]).
    pose proof (in_range_0 _ H11). unfold in_range in *. lia. }
  rewrite Hh. cbn [obind snd].
  assert (0 <= b / 2 <= b) by (split; [apply Z.div_pos; lia|apply Z.div_le_upper_bound; lia]).
  pose proof (in_range_0 ty H1) as H0ty.
  rewrite (wrap_id ty (b / 2)) by (auto; unfold in_range in *; lia).
  unfold cle. rewrite crel_same by (auto; unfold in_range in *; lia).
  pose proof (Z.div_mod b 2 ltac:(lia)). pose proof (Z.mod_pos_bound b 2 ltac:(lia)).
  destruct (Z.leb_spec (a mod b) (b / 2)).
  - exists (a / b). rewrite wrap_id; [|assumption|unfold in_range in *; lia].
    split; [reflexivity|]. replace (a - a / b * b) with (a mod b) by lia. lia.
  - assert (Hs : in_range T (a / b + 1)).
    { assert (a / b + 1 <= a); [|unfold in_range in *; lia].
      destruct (Z.eq_dec b 1); [subst; rewrite Z.mod_1_r in *; lia|]. nia. }
    unfold cadd. rewrite cbin_same; auto using in_range_1.
    + rewrite H2, norm_in; auto; [|apply (in_range_nonneg T); auto; lia].
      cbn [obind snd]. rewrite wrap_id by assumption.
      exists (a / b + 1). split; [reflexivity|].
      replace (a - (a / b + 1) * b) with (a mod b - b) by lia. lia.
    + apply (in_range_nonneg T); auto; [lia|]. unfold in_range in *; lia.
Qed.
