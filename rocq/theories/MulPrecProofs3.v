(* shifts and division *)
From Coq Require Import ZArith Lia Bool List ZifyBool.
From Verif Require Import CInt IntModel IntProofs IntProofs4 IntProps ArrLib MulPrecModel MulPrecSpec
  MulPrecProofs MulPrecProofs2.
Import ListNotations.
Open Scope Z_scope.

(* right shift of a digit string by s < w bits, digits of w bits *)
Fixpoint srl (w s : Z) (l : list Z) : list Z :=
  match l with
  | [] => []
  | p :: l => (p / 2 ^ s + (hd 0 l mod 2 ^ s) * 2 ^ (w - s)) :: srl w s l
  end.

Lemma srl_length w s l : length (srl w s l) = length l.
Proof. induction l; cbn [srl length]; congruence. Qed.

Lemma hd_mod w s l : 0 <= s <= w -> digits (2 ^ w) l -> (hd 0 l) mod 2 ^ s = val (2 ^ w) l mod 2 ^ s.
Proof.
  intros Hs Hd. destruct l as [|p l]; [reflexivity|]. cbn [hd val].
  pose proof (pow_pos2 s ltac:(lia)).
  replace (2 ^ w) with (2 ^ (w - s) * 2 ^ s) by (rewrite <- Z.pow_add_r by lia; f_equal; lia).
  replace (2 ^ (w - s) * 2 ^ s * val (2 ^ (w - s) * 2 ^ s) l)
    with ((2 ^ (w - s) * val (2 ^ (w - s) * 2 ^ s) l) * 2 ^ s) by ring.
  now rewrite Z.mod_add by lia.
Qed.

Lemma srl_ok w s l : 0 <= s < w -> digits (2 ^ w) l ->
  digits (2 ^ w) (srl w s l) /\ val (2 ^ w) (srl w s l) = val (2 ^ w) l / 2 ^ s.
Proof.
  intros Hs. pose proof (pow_pos2 s ltac:(lia)) as P1. pose proof (pow_pos2 (w - s) ltac:(lia)) as P2.
  assert (EW : 2 ^ w = 2 ^ (w - s) * 2 ^ s) by (rewrite <- Z.pow_add_r by lia; f_equal; lia).
  induction l as [|p l IH]; intros Hd.
  - split; [constructor|]. cbn [srl val]. now rewrite Z.div_0_l by lia.
  - apply digits_cons in Hd as [Hp Hd]. destruct (IH Hd) as [D V].
    pose proof (hd_mod w s l ltac:(lia) Hd) as Hm.
    cbn [srl val]. rewrite V, Hm.
    pose proof (Z.mod_pos_bound (val (2 ^ w) l) (2 ^ s) P1) as R.
    set (L := val (2 ^ w) l) in *.
    assert (0 <= p / 2 ^ s < 2 ^ (w - s)).
    { split; [apply Z.div_pos; lia|]. apply Z.div_lt_upper_bound; lia. }
    split.
    + apply digits_cons. split; [nia|assumption].
    + replace (p + 2 ^ w * L) with (p + (2 ^ (w - s) * L) * 2 ^ s) by (rewrite EW; ring).
      rewrite Z.div_add by lia. pose proof (Z.div_mod L (2 ^ s) ltac:(lia)).
      rewrite EW. nia.
Qed.

Lemma srl_nth w s : forall l k p, nth_error l k = Some p ->
  nth_error (srl w s l) k = Some (p / 2 ^ s + (nth (S k) l 0 mod 2 ^ s) * 2 ^ (w - s)).
Proof.
  induction l as [|q l IH]; intros k p E; [destruct k; discriminate|].
  destruct k; cbn in E.
  - inversion E; subst. cbn [srl nth_error]. destruct l; reflexivity.
  - cbn [srl nth_error]. rewrite (IH k p E). reflexivity.
Qed.

(* left shift; the result is one digit short: the bits shifted out are dropped *)
Fixpoint sll (w s prev : Z) (l : list Z) : list Z :=
  match l with
  | [] => []
  | p :: l => ((p mod 2 ^ (w - s)) * 2 ^ s + prev / 2 ^ (w - s)) :: sll w s p l
  end.

Lemma sll_length w s l : forall prev, length (sll w s prev l) = length l.
Proof. induction l; intros; cbn [sll length]; congruence. Qed.

Lemma sll_ok w s : 0 <= s <= w -> forall l prev, digits (2 ^ w) l -> 0 <= prev < 2 ^ w ->
  digits (2 ^ w) (sll w s prev l) /\
  exists c, val (2 ^ w) (sll w s prev l) + (2 ^ w) ^ Z.of_nat (length l) * c =
    2 ^ s * val (2 ^ w) l + prev / 2 ^ (w - s).
Proof.
  intros Hs. pose proof (pow_pos2 s ltac:(lia)) as P1. pose proof (pow_pos2 (w - s) ltac:(lia)) as P2.
  assert (EW : 2 ^ w = 2 ^ (w - s) * 2 ^ s) by (rewrite <- Z.pow_add_r by lia; f_equal; lia).
  induction l as [|p l IH]; intros prev Hd Hp.
  - split; [constructor|]. exists (prev / 2 ^ (w - s)). cbn [sll val length Z.of_nat].
    rewrite Z.pow_0_r. lia.
  - apply digits_cons in Hd as [Hpp Hd]. destruct (IH p Hd Hpp) as [D [c V]].
    assert (0 <= prev / 2 ^ (w - s) < 2 ^ s).
    { split; [apply Z.div_pos; lia|]. apply Z.div_lt_upper_bound; lia. }
    pose proof (Z.mod_pos_bound p (2 ^ (w - s)) P2). pose proof (Z.div_mod p (2 ^ (w - s)) ltac:(lia)).
    cbn [sll val length]. split.
    + apply digits_cons. split; [nia|assumption].
    + exists c. rewrite Nat2Z.inj_succ, Z.pow_succ_r by lia.
      replace (2 ^ s * (p + 2 ^ w * val (2 ^ w) l))
        with (2 ^ s * p + 2 ^ w * (2 ^ s * val (2 ^ w) l)) by ring.
      replace (2 ^ s * val (2 ^ w) l) with (val (2 ^ w) (sll w s p l) + (2 ^ w) ^ Z.of_nat (length l) * c
        - p / 2 ^ (w - s)) by lia.
      set (X := val (2 ^ w) (sll w s p l)). set (Y := (2 ^ w) ^ Z.of_nat (length l)).
      assert (EP : 2 ^ s * p = p mod 2 ^ (w - s) * 2 ^ s + 2 ^ w * (p / 2 ^ (w - s))).
      { rewrite EW. nia. }
      rewrite EP. ring.
Qed.

Lemma sll_nth w s : forall l prev k p, nth_error l k = Some p ->
  nth_error (sll w s prev l) k =
    Some ((p mod 2 ^ (w - s)) * 2 ^ s + nth k (prev :: l) 0 / 2 ^ (w - s)).
Proof.
  induction l as [|q l IH]; intros prev k p E; [destruct k; discriminate|].
  destruct k; cbn in E.
  - inversion E; subst. reflexivity.
  - cbn [sll nth_error]. rewrite (IH q k p E). reflexivity.
Qed.

Section S.
  Variables (pw h : Z) (N : nat).
  Hypothesis Hh : 1 <= h.
  Hypothesis Hpw : pw = 2 * h.
  Hypothesis HN : (1 <= N)%nat.

  Notation B := (2 ^ h).
  Notation M := (2 ^ pw).
  Notation W := (Z.of_nat N * pw).

  Let MM := M2 pw h Hh Hpw.
  Let HB := B_pos h Hh.
  Let HBB := BB pw h Hh Hpw.

  (* the combined parts of the shift operators *)
  Lemma shl_part p p1 b s k : 0 < b < pw -> 0 <= p < M -> 0 <= p1 < M -> s = p * 2 ^ b + k * M ->
    pt pw (Z.lor s (p1 / 2 ^ (pw - b))) = (p mod 2 ^ (pw - b)) * 2 ^ b + p1 / 2 ^ (pw - b).
  Proof.
    intros Hb Hp Hp1 ->. pose proof MM.
    pose proof (pow_pos2 b ltac:(lia)) as P1. pose proof (pow_pos2 (pw - b) ltac:(lia)) as P2.
    assert (EW : M = 2 ^ (pw - b) * 2 ^ b) by (rewrite <- Z.pow_add_r by lia; f_equal; lia).
    assert (0 <= p1 / 2 ^ (pw - b) < 2 ^ b).
    { split; [apply Z.div_pos; lia|]. apply Z.div_lt_upper_bound; lia. }
    pose proof (Z.mod_pos_bound p (2 ^ (pw - b)) P2). pose proof (Z.div_mod p (2 ^ (pw - b)) ltac:(lia)).
    rewrite (lor_plus _ _ b); try lia.
    2: { rewrite EW. replace (p * 2 ^ b + k * (2 ^ (pw - b) * 2 ^ b))
           with ((p + k * 2 ^ (pw - b)) * 2 ^ b) by ring. apply Z.mod_mul. lia. }
    rewrite pt_mod. symmetry. apply (Z.mod_unique _ _ (p / 2 ^ (pw - b) + k)); [left; nia|].
    rewrite EW in *. nia.
  Qed.

  Lemma shr_part p p1 b s k : 0 < b < pw -> 0 <= p < M -> 0 <= p1 < M -> s = p1 * 2 ^ (pw - b) + k * M ->
    pt pw (Z.lor (p / 2 ^ b) s) = p / 2 ^ b + (p1 mod 2 ^ b) * 2 ^ (pw - b).
  Proof.
    intros Hb Hp Hp1 ->. rewrite Z.lor_comm.
    pose proof (shl_part p1 p (pw - b) (p1 * 2 ^ (pw - b) + k * M) k ltac:(lia) Hp1 Hp eq_refl) as E.
    replace (pw - (pw - b)) with b in E by lia. rewrite E. lia.
  Qed.

  Lemma digit_nth l k b : digits b l -> (k < length l)%nat -> 0 <= nth k l 0 < b.
  Proof. intros H Hk. apply (proj1 (Forall_forall _ _) H). now apply nth_In. Qed.

  Lemma shift_split n : 0 <= n ->
    exists a b, Z.rem n W = Z.of_nat a * pw + b /\ (a < N)%nat /\ 0 <= b < pw /\
      Z.quot (Z.rem n W) pw = Z.of_nat a /\ Z.rem (Z.rem n W) pw = b /\ Z.rem n W = n mod W.
  Proof.
    intros Hn. assert (0 < W) by nia. rewrite Z.rem_mod_nonneg by lia.
    pose proof (Z.mod_pos_bound n W ltac:(lia)) as R.
    rewrite Z.quot_div_nonneg, Z.rem_mod_nonneg by lia.
    exists (Z.to_nat ((n mod W) / pw)), ((n mod W) mod pw).
    pose proof (Z.div_mod (n mod W) pw ltac:(lia)). pose proof (Z.mod_pos_bound (n mod W) pw ltac:(lia)).
    assert (0 <= (n mod W) / pw < Z.of_nat N).
    { split; [apply Z.div_pos; lia|]. apply Z.div_lt_upper_bound; lia. }
    rewrite Z2Nat.id by lia. repeat split; try lia.
  Qed.

  Lemma pow_a_b (a : nat) b : 0 <= b -> 2 ^ (Z.of_nat a * pw + b) = M ^ Z.of_nat a * 2 ^ b.
  Proof. intros. rewrite Z.pow_add_r by nia. rewrite <- Z.pow_mul_r by lia. do 2 f_equal. lia. Qed.

  Lemma pow_a_N (a : nat) : (a <= N)%nat -> 2 ^ W = M ^ Z.of_nat a * M ^ Z.of_nat (N - a).
  Proof.
    intros. rewrite <- Z.pow_add_r by lia. rewrite <- (powMN pw h N) by assumption. f_equal. lia.
  Qed.

  Lemma shift_left_ok x n : parts_ok pw N x -> 0 <= n ->
    exists z, shift_left pw N x n = Some z /\ parts_ok pw N z /\
      uvalue pw z = (uvalue pw x * 2 ^ (n mod W)) mod 2 ^ W.
  Proof.
    intros Hx Hn. pose proof MM as HM.
    destruct (shift_split n Hn) as (a & b & E1 & Ha & Hb & E2 & E3 & E4).
    unfold shift_left, width. rewrite E2, E3. unfold check.
    destruct (Z.leb_spec 0 (Z.of_nat a)); [|lia]. cbn [obind]. rewrite Nat2Z.id.
    destruct Hx as [Lx Dx]. rewrite <- E4, E1, pow_a_b by lia.
    assert (Hfin : forall l, length l = (N - a)%nat -> digits M l ->
      (exists c, val M l + M ^ Z.of_nat (N - a) * c = 2 ^ b * val M (firstn (N - a) x)) ->
      parts_ok pw N (repeat 0 a ++ l) /\
      uvalue pw (repeat 0 a ++ l) = (uvalue pw x * (M ^ Z.of_nat a * 2 ^ b)) mod 2 ^ W).
    { intros l Ll Dl [c Ec].
      assert (Hz : parts_ok pw N (repeat 0 a ++ l)).
      { split; [rewrite app_length, repeat_length; lia|]. apply digits_app.
        split; [apply digits_zeros; lia|assumption]. }
      split; [assumption|]. pose proof (uvalue_range pw h N Hh Hpw HN _ Hz) as R.
      unfold uvalue in *. rewrite val_app, val_zeros, repeat_length, Z.add_0_l in *.
      rewrite <- (firstn_skipn (N - a) x) at 1. rewrite val_app, firstn_length.
      replace (Nat.min (N - a) (length x)) with (N - a)%nat by lia.
      set (F := val M (firstn (N - a) x)) in *. set (G := val M (skipn (N - a) x)) in *.
      replace ((F + M ^ Z.of_nat (N - a) * G) * (M ^ Z.of_nat a * 2 ^ b))
        with (M ^ Z.of_nat a * (2 ^ b * F) + (G * 2 ^ b) * (M ^ Z.of_nat a * M ^ Z.of_nat (N - a))) by ring.
      rewrite <- Ec, <- pow_a_N by lia. rewrite Z.mod_add by lia.
      replace (M ^ Z.of_nat a * (val M l + M ^ Z.of_nat (N - a) * c))
        with (M ^ Z.of_nat a * val M l + c * (M ^ Z.of_nat a * M ^ Z.of_nat (N - a))) by ring.
      rewrite <- pow_a_N by lia. rewrite Z.mod_add by lia. symmetry. now apply Z.mod_small. }
    assert (EZ : zero N = repeat 0 a ++ repeat 0 (N - a)).
    { unfold zero. rewrite <- repeat_app. f_equal. lia. }
    destruct (Z.eqb_spec b 0) as [Hb0|Hb0]; cbn [negb].
    - (* whole parts *)
      assert (L : length (firstn (N - a) x) = (N - a)%nat) by (rewrite firstn_length; lia).
      destruct (Hfin (firstn (N - a) x) L) as [Hz V].
      { now apply digits_firstn. }
      { exists 0. rewrite Hb0, Z.pow_0_r. lia. }
      exists (repeat 0 a ++ firstn (N - a) x). split; [|split; assumption].
      rewrite EZ. rewrite <- (app_nil_r (repeat 0 (N - a))), <- (app_nil_r (firstn (N - a) x)).
      apply fill_loop_spec; try (rewrite repeat_length; lia); try exact L; try apply repeat_length.
      intros k Hk. replace (a + k - a)%nat with k by lia.
      rewrite <- (firstn_skipn (N - a) x) at 1. apply nth_error_app1. lia.
    - destruct x as [|p0 rest] eqn:Ex; [cbn in Lx; lia|].
      cbn [nth_error obind].
      destruct (shl_cong pw h Hpw p0 b ltac:(lia)) as [k0 ->]. cbn [obind].
      assert (EZ2 : zero N = repeat 0 a ++ 0 :: repeat 0 (N - a - 1)).
      { rewrite EZ. f_equal. replace (N - a)%nat with (S (N - a - 1)) by lia. cbn. f_equal. f_equal. lia. }
      rewrite EZ2, set_nth_mid by (rewrite repeat_length; reflexivity). cbn [obind].
      apply digits_cons in Dx as [Hp0 Dr].
      assert (Ld : length (sll pw b p0 (firstn (N - a - 1) rest)) = (N - a - 1)%nat).
      { rewrite sll_length, firstn_length. cbn in Lx. lia. }
      assert (Eh : pt pw (p0 * 2 ^ b + k0 * M) = (p0 mod 2 ^ (pw - b)) * 2 ^ b + 0 / 2 ^ (pw - b)).
      { rewrite <- (shl_part p0 0 b (p0 * 2 ^ b + k0 * M) k0) by (lia || reflexivity).
        rewrite Z.div_0_l by (pose proof (pow_pos2 (pw - b)); lia). now rewrite Z.lor_0_r. }
      assert (EF : firstn (N - a) (p0 :: rest) = p0 :: firstn (N - a - 1) rest).
      { replace (N - a)%nat with (S (N - a - 1)) by lia. cbn. do 2 f_equal. lia. }
      assert (ES : sll pw b 0 (firstn (N - a) (p0 :: rest)) =
        pt pw (p0 * 2 ^ b + k0 * M) :: sll pw b p0 (firstn (N - a - 1) rest)).
      { rewrite EF. cbn [sll]. now rewrite Eh. }
      assert (DF : digits M (firstn (N - a) (p0 :: rest))).
      { apply digits_firstn. now apply digits_cons. }
      destruct (sll_ok pw b ltac:(lia) (firstn (N - a) (p0 :: rest)) 0 DF ltac:(lia)) as [DS [c ESV]].
      rewrite Z.div_0_l in ESV by (pose proof (pow_pos2 (pw - b)); lia).
      destruct (Hfin (sll pw b 0 (firstn (N - a) (p0 :: rest)))) as [Hz V].
      { rewrite sll_length, firstn_length, <- Ex. rewrite Ex. lia. }
      { exact DS. }
      { exists c. rewrite firstn_length in ESV.
        replace (Nat.min (N - a) (length (p0 :: rest))) with (N - a)%nat in ESV by lia. lia. }
      exists (repeat 0 a ++ sll pw b 0 (firstn (N - a) (p0 :: rest))).
      split; [|split; assumption]. rewrite ES.
      replace (repeat 0 a ++ pt pw (p0 * 2 ^ b + k0 * M) :: repeat 0 (N - a - 1))
        with ((repeat 0 a ++ [pt pw (p0 * 2 ^ b + k0 * M)]) ++ repeat 0 (N - a - 1) ++ [])
        by (rewrite <- app_assoc, app_nil_r; reflexivity).
      rewrite fill_loop_spec with (l := sll pw b p0 (firstn (N - a - 1) rest)).
      + rewrite <- app_assoc, app_nil_r. reflexivity.
      + intros k Hk. replace (a + 1 + k - a)%nat with (S k) by lia.
        replace (S k - 1)%nat with k by lia. cbn [nth_error].
        assert (Lr : length rest = (N - 1)%nat) by (cbn in Lx; lia).
        rewrite (nth_error_nth_Z rest) by lia. cbn [obind].
        rewrite (nth_error_nth_Z (p0 :: rest) k) by (cbn; lia). cbn [obind].
        destruct (shl_cong pw h Hpw (nth k rest 0) b ltac:(lia)) as [k1 ->]. cbn [obind].
        rewrite shr_ok by lia. cbn [obind].
        rewrite (shl_part (nth k rest 0) (nth k (p0 :: rest) 0) b _ k1); try lia.
        * rewrite (sll_nth pw b (firstn (N - a - 1) rest) p0 k (nth k rest 0)).
          2: { rewrite nth_error_nth_Z by (rewrite firstn_length; lia). f_equal.
               rewrite <- (firstn_skipn (N - a - 1) rest) at 2. symmetry. apply app_nth1.
               rewrite firstn_length. lia. }
          do 3 f_equal. destruct k; [reflexivity|]. cbn [nth].
          rewrite <- (firstn_skipn (N - a - 1) rest) at 1. apply app_nth1. rewrite firstn_length. lia.
        * apply digit_nth; [assumption|lia].
        * apply digit_nth; [now apply digits_cons|cbn; lia].
      + exact Ld.
      + apply repeat_length.
      + rewrite app_length, repeat_length. reflexivity.
  Qed.

  Lemma val_skipn_div x a : digits M x -> (a <= length x)%nat ->
    val M (skipn a x) = val M x / M ^ Z.of_nat a.
  Proof.
    intros Dx Ha. pose proof MM. rewrite <- (firstn_skipn a x) at 2. rewrite val_app, firstn_length.
    replace (Nat.min a (length x)) with a by lia.
    pose proof (val_range M _ ltac:(lia) (digits_firstn _ x a Dx)) as R. rewrite firstn_length in R.
    replace (Nat.min a (length x)) with a in R by lia.
    rewrite (Z.mul_comm (M ^ _)), Z.div_add, Z.div_small by lia. lia.
  Qed.

  Lemma nth_skipn' (x : list Z) a k : nth k (skipn a x) 0 = nth (a + k) x 0.
  Proof. revert x. induction a; intros x; [reflexivity|]. destruct x; [now destruct k|]. apply IHa. Qed.

  Lemma nth_error_skipn' (x : list Z) a k : nth_error (skipn a x) k = nth_error x (a + k).
  Proof. revert x. induction a; intros x; [reflexivity|]. destruct x; [now destruct k|]. apply IHa. Qed.

  Lemma shift_right_ok x n : parts_ok pw N x -> 0 <= n ->
    exists z, shift_right pw N x n = Some z /\ parts_ok pw N z /\
      uvalue pw z = uvalue pw x / 2 ^ (n mod W).
  Proof.
    intros Hx Hn. pose proof MM as HM.
    destruct (shift_split n Hn) as (a & b & E1 & Ha & Hb & E2 & E3 & E4).
    unfold shift_right, width. rewrite E2, E3. unfold check.
    destruct (Z.leb_spec 0 (Z.of_nat a)); [|lia]. cbn [obind]. rewrite Nat2Z.id.
    destruct Hx as [Lx Dx]. rewrite <- E4, E1, pow_a_b by lia.
    assert (PM : 0 < M ^ Z.of_nat a) by (apply Z.pow_pos_nonneg; lia).
    pose proof (pow_pos2 b ltac:(lia)) as Pb.
    rewrite <- Z.div_div by lia. unfold uvalue. rewrite <- val_skipn_div by (assumption || lia).
    assert (Ls : length (skipn a x) = (N - a)%nat) by (rewrite skipn_length; lia).
    assert (Ds : digits M (skipn a x)).
    { rewrite <- (firstn_skipn a x) in Dx. now apply digits_app in Dx. }
    destruct (srl_ok pw b (skipn a x) ltac:(lia) Ds) as [DR VR].
    assert (LR : length (srl pw b (skipn a x)) = (N - a)%nat) by (now rewrite srl_length).
    exists (srl pw b (skipn a x) ++ repeat 0 a). split; [|split].
    2: { split; [rewrite app_length, repeat_length; lia|]. apply digits_app.
         split; [assumption|apply digits_zeros; lia]. }
    2: { rewrite val_app, val_zeros, VR. lia. }
    destruct (Z.eqb_spec b 0) as [Hb0|Hb0]; cbn [negb].
    - assert (EZ : zero N = [] ++ repeat 0 (N - a) ++ repeat 0 a).
      { cbn [app]. unfold zero. rewrite <- repeat_app. f_equal. lia. }
      rewrite EZ. rewrite <- (app_nil_l (srl _ _ _ ++ _)).
      apply fill_loop_spec; try (rewrite repeat_length; lia); try exact LR; try reflexivity.
      intros k Hk. cbn [Nat.add]. rewrite (srl_nth pw b _ k (nth (a + k) x 0)).
      2: { rewrite nth_error_skipn'. apply nth_error_nth_Z. lia. }
      rewrite nth_error_nth_Z by lia. f_equal. rewrite Hb0, Z.pow_0_r, Z.div_1_r, Z.mod_1_r.
      rewrite (Nat.add_comm k a). lia.
    - assert (EZ : zero N = [] ++ repeat 0 (N - 1 - a) ++ (0 :: repeat 0 a)).
      { cbn [app]. change (0 :: repeat 0 a) with (repeat 0 (S a)). unfold zero.
        rewrite <- repeat_app. f_equal. lia. }
      rewrite EZ.
      set (l := firstn (N - 1 - a) (srl pw b (skipn a x))).
      assert (Ll : length l = (N - 1 - a)%nat) by (unfold l; rewrite firstn_length; lia).
      rewrite fill_loop_spec with (l := l).
      + cbn [obind app]. rewrite nth_error_nth_Z by lia. cbn [obind]. rewrite shr_ok by lia. cbn [obind].
        rewrite set_nth_mid by lia. f_equal.
        pose proof (digit_nth x (N - 1) M Dx ltac:(lia)).
        assert (0 <= nth (N - 1) x 0 / 2 ^ b < M).
        { split; [apply Z.div_pos; lia|]. apply Z.div_lt_upper_bound; nia. }
        rewrite pt_id by assumption.
        pose proof (srl_nth pw b (skipn a x) (N - 1 - a) (nth (N - 1) x 0)) as HL.
        rewrite nth_error_skipn' in HL.
        replace (a + (N - 1 - a))%nat with (N - 1)%nat in HL by lia.
        specialize (HL ltac:(apply nth_error_nth_Z; lia)).
        rewrite (nth_overflow (skipn a x)) in HL by lia.
        rewrite Z.mod_0_l, Z.mul_0_l, Z.add_0_r in HL by lia.
        pose proof (firstn_snoc _ _ _ HL) as HF.
        rewrite firstn_all2 in HF by lia. rewrite HF at 1. fold l. now rewrite <- app_assoc.
      + intros k Hk. cbn [Nat.add].
        rewrite (nth_error_nth_Z x (a + k)) by lia. cbn [obind].
        rewrite (nth_error_nth_Z x (a + k + 1)) by lia. cbn [obind].
        rewrite shr_ok by lia. cbn [obind].
        destruct (shl_cong pw h Hpw (nth (a + k + 1) x 0) (pw - b) ltac:(lia)) as [k1 ->]. cbn [obind].
        rewrite (shr_part _ (nth (a + k + 1) x 0) b _ k1); try lia; try (apply digit_nth; [assumption|lia]).
        unfold l. replace (nth_error (firstn (N - 1 - a) (srl pw b (skipn a x))) k)
          with (nth_error (srl pw b (skipn a x)) k).
        2: { rewrite <- (firstn_skipn (N - 1 - a) (srl pw b (skipn a x))) at 1.
             apply nth_error_app1. fold l. lia. }
        rewrite (srl_nth pw b _ k (nth (a + k) x 0)).
        2: { rewrite nth_error_skipn'. apply nth_error_nth_Z. lia. }
        rewrite nth_skipn'. replace (a + S k)%nat with (a + k + 1)%nat by lia. reflexivity.
      + exact Ll.
      + apply repeat_length.
      + reflexivity.
  Qed.
End S.
