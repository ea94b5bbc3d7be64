From Coq Require Import ZArith Lia Bool List ZifyBool.
From Verif Require Import CInt IntModel IntProofs IntProofs4 ArrLib MulPrecModel MulPrecSpec.
Import ListNotations.
Open Scope Z_scope.

(* ------------------------------------------------------------------ *)
(* positional values *)

Lemma val_app b l m : val b (l ++ m) = val b l + b ^ Z.of_nat (length l) * val b m.
Proof.
  induction l as [|d l IH]; [cbn [app val length Z.of_nat]; lia|].
  cbn [app val length]. rewrite IH, Nat2Z.inj_succ, Z.pow_succ_r by lia. lia.
Qed.

Lemma val_range b l : 0 < b -> digits b l -> 0 <= val b l < b ^ Z.of_nat (length l).
Proof.
  intros Hb H. induction H as [|d l Hd H IH]; [cbn; lia|].
  cbn [val length]. rewrite Nat2Z.inj_succ, Z.pow_succ_r by lia. nia.
Qed.

Lemma val_zeros b n : val b (repeat 0 n) = 0.
Proof. induction n; cbn [repeat val]; lia. Qed.

Lemma digits_zeros b n : 0 < b -> digits b (repeat 0 n).
Proof. intros. apply Forall_forall. intros x Hx. apply repeat_spec in Hx. lia. Qed.

Lemma val_inj b l m : 0 < b -> digits b l -> digits b m -> length l = length m ->
  val b l = val b m -> l = m.
Proof.
  intros Hb Hl. revert m. induction Hl as [|d l Hd Hl IH]; intros m Hm Hlen E.
  - destruct m; [reflexivity|discriminate].
  - destruct m as [|e m]; [discriminate|]. inversion Hm; subst. cbn [val] in E.
    assert (d = e).
    { apply (f_equal (fun z => z mod b)) in E.
      rewrite !(Z.mul_comm b), !Z.mod_add, !Z.mod_small in E by lia. exact E. }
    subst e. f_equal. apply IH; [exact H2 | cbn in Hlen; lia | nia].
Qed.

Lemma digits_cons b d l : digits b (d :: l) <-> 0 <= d < b /\ digits b l.
Proof. unfold digits. split; [intros H; inversion H; auto | intros []; now constructor]. Qed.

Lemma digits_app b l m : digits b (l ++ m) <-> digits b l /\ digits b m.
Proof. unfold digits. apply Forall_app. Qed.

Lemma pow_pos2 k : 0 <= k -> 0 < 2 ^ k.
Proof. intros. apply Z.pow_pos_nonneg; lia. Qed.

(* ------------------------------------------------------------------ *)
(* loops over arrays *)

Fixpoint zipc (f : Z -> Z -> Z -> option (Z * Z)) (s v : list Z) (c : Z) : option (list Z * Z) :=
  match s, v with
  | a :: s, b :: v =>
    let? (r, c) := f a b c in
    let? (rs, c) := zipc f s v c in
    Some (r :: rs, c)
  | _, _ => Some ([], c)
  end.

Lemma nth_error_mid {A} (l : list A) x m i : i = length l -> nth_error (l ++ x :: m) i = Some x.
Proof.
  intros ->. rewrite nth_error_app2 by lia. rewrite Nat.sub_diag. reflexivity.
Qed.

Lemma set_nth_mid {A} (l : list A) x m i y : i = length l ->
  set_nth (l ++ x :: m) i y = Some (l ++ y :: m).
Proof. intros ->. apply set_nth_app. Qed.

Lemma carry_loop_spec f s : forall vs c rs c' n i j pre post vpre vpost,
  zipc f s vs c = Some (rs, c') ->
  length s = n -> length vs = n -> length pre = (j + i)%nat -> length vpre = i ->
  carry_loop f n i j (pre ++ s ++ post) (vpre ++ vs ++ vpost) c = Some (pre ++ rs ++ post, c').
Proof.
  induction s as [|a s IH]; intros vs c rs c' n i j pre post vpre vpost H Hs Hv Hp Hvp.
  - destruct n; [|discriminate]. destruct vs; [|discriminate]. cbn in H.
    inversion H; subst. reflexivity.
  - destruct n; [discriminate|]. destruct vs as [|b vs]; [discriminate|].
    cbn [zipc obind] in H. destruct (f a b c) as [[r c1]|] eqn:E1; [|discriminate].
    cbn [obind] in H. destruct (zipc f s vs c1) as [[rs1 c2]|] eqn:E2; [|discriminate].
    cbn [obind] in H. inversion H; subst. cbn [carry_loop app].
    rewrite nth_error_mid by lia. cbn [obind]. rewrite nth_error_mid by lia. cbn [obind].
    rewrite E1. cbn [obind]. rewrite set_nth_mid by lia. cbn [obind].
    specialize (IH vs c1 rs1 c' n (S (length vpre)) j (pre ++ [r]) post (vpre ++ [b]) vpost E2).
    rewrite !app_length in IH. cbn [length] in IH, Hs, Hv.
    rewrite <- !app_assoc in IH. cbn [app] in IH. apply IH; lia.
Qed.

Lemma fill_loop_spec f l : forall n i pre seg post,
  (forall k, (k < n)%nat -> f (i + k)%nat = nth_error l k) ->
  length l = n -> length seg = n -> length pre = i ->
  fill_loop f n i (pre ++ seg ++ post) = Some (pre ++ l ++ post).
Proof.
  induction l as [|x l IH]; intros n i pre seg post H Hl Hs Hp.
  - destruct n; [|discriminate]. destruct seg; [|discriminate]. reflexivity.
  - destruct n; [discriminate|]. destruct seg as [|y seg]; [discriminate|].
    cbn [fill_loop]. pose proof (H 0%nat ltac:(lia)) as H0. rewrite Nat.add_0_r in H0.
    rewrite H0. cbn [nth_error obind app]. rewrite set_nth_mid by lia. cbn [obind].
    specialize (IH n (S i) (pre ++ [x]) seg post).
    rewrite <- !app_assoc in IH. cbn [app] in IH. apply IH.
    + intros k Hk. replace (S i + k)%nat with (i + S k)%nat by lia. apply (H (S k)). lia.
    + cbn in Hl. lia.
    + cbn in Hs. lia.
    + rewrite app_length. cbn. lia.
Qed.

(* ------------------------------------------------------------------ *)
(* arithmetic on parts *)

Section Arith.
  Variables (pw h : Z).
  Hypothesis Hh : 1 <= h.
  Hypothesis Hpw : pw = 2 * h.

  Notation B := (2 ^ h).

  Lemma B_pos : 2 <= B.
  Proof. change 2 with (2 ^ 1) at 1. apply Z.pow_le_mono_r; lia. Qed.

  Lemma BB : 2 ^ pw = B * B.
  Proof. rewrite Hpw, <- Z.pow_add_r by lia. f_equal. lia. Qed.

  Lemma M2 : 2 <= 2 ^ pw.
  Proof. pose proof B_pos. rewrite BB. nia. Qed.

  Lemma sw_h : sw pw = h.
  Proof. unfold sw. rewrite Hpw, Z.mul_comm, Z.div_mul by lia. reflexivity. Qed.

  Lemma mask_h : mask pw = B - 1.
  Proof. unfold mask. now rewrite sw_h. Qed.

  Lemma pt_mod z : pt pw z = z mod 2 ^ pw.
  Proof. reflexivity. Qed.

  Lemma pt_id z : 0 <= z < 2 ^ pw -> pt pw z = z.
  Proof. intros. rewrite pt_mod. now apply Z.mod_small. Qed.

  Lemma narrow : pw < 32 -> pw <= 30.
  Proof. lia. Qed.

  Lemma ar_small z : 0 <= z < 2 ^ pw -> ar pw z = Some z.
  Proof.
    intros Hz. unfold ar, P, promo, T. cbn [iwidth].
    destruct (Z.ltb_spec pw 32) as [Hl|Hl].
    - unfold norm, in_rangeb, imin, imax. cbn [t_int isigned iwidth].
      assert (2 ^ pw <= 2 ^ 30) by (apply Z.pow_le_mono_r; lia).
      change (2 ^ (32 - 1)) with 2147483648. change (2 ^ 30) with 1073741824 in *.
      destruct (andb _ _) eqn:E; [reflexivity|lia].
    - unfold norm. cbn [isigned option_map snd]. unfold wrap. cbn [isigned iwidth].
      now rewrite Z.mod_small.
  Qed.

  Lemma ar_cong z : - 2 ^ pw <= z < 2 * 2 ^ pw ->
    exists z', ar pw z = Some z' /\ z' mod 2 ^ pw = z mod 2 ^ pw.
  Proof.
    intros Hz. unfold ar, P, promo, T. cbn [iwidth].
    destruct (Z.ltb_spec pw 32) as [Hl|Hl].
    - unfold norm, in_rangeb, imin, imax. cbn [t_int isigned iwidth].
      assert (2 ^ pw <= 2 ^ 30) by (apply Z.pow_le_mono_r; lia).
      change (2 ^ (32 - 1)) with 2147483648. change (2 ^ 30) with 1073741824 in *.
      exists z. destruct (andb _ _) eqn:E; [split; reflexivity|lia].
    - unfold norm. cbn [isigned option_map snd]. unfold wrap. cbn [isigned iwidth].
      exists (z mod 2 ^ pw). rewrite Z.mod_mod by lia. auto.
  Qed.

  (* z small and negative: the low h bits and the borrow come out right *)
  Lemma P_width : pw <= iwidth (P pw).
  Proof. unfold P, promo, T. cbn [iwidth]. destruct (Z.ltb_spec pw 32); cbn [iwidth t_int]; lia. Qed.

  Lemma shr_ok x n : 0 <= n < pw -> shr pw x n = Some (x / 2 ^ n).
  Proof.
    intros Hn. pose proof P_width. unfold shr, cshr. cbn [fst snd].
    assert (promo (P pw) = P pw) as ->.
    { unfold P, promo, T. cbn [iwidth]. destruct (Z.ltb_spec pw 32) as [Hl|Hl]; [reflexivity|].
      cbn [iwidth]. destruct (Z.ltb_spec pw 32); [lia|reflexivity]. }
    destruct (andb _ _) eqn:E; [|lia]. cbn [option_map snd]. now rewrite Z.shiftr_div_pow2 by lia.
  Qed.

  Lemma shl_cong x n : 0 <= n < pw ->
    exists k, shl pw x n = Some (x * 2 ^ n + k * 2 ^ pw).
  Proof.
    intros Hn. pose proof P_width as Hw. unfold shl, cshl. cbn [fst snd].
    assert (promo (P pw) = P pw) as ->.
    { unfold P, promo, T. cbn [iwidth]. destruct (Z.ltb_spec pw 32) as [Hl|Hl]; [reflexivity|].
      cbn [iwidth]. destruct (Z.ltb_spec pw 32); [lia|reflexivity]. }
    destruct (andb _ _) eqn:E; [|lia]. cbn [option_map snd]. rewrite Z.shiftl_mul_pow2 by lia.
    assert (ity_ok (P pw)) as Hok.
    { unfold P, promo, T, ity_ok. cbn [iwidth]. destruct (Z.ltb_spec pw 32); cbn; lia. }
    destruct (wrap_cong (P pw) (x * 2 ^ n) Hok) as [k Hk]. rewrite Hk.
    exists (k * 2 ^ (iwidth (P pw) - pw)). do 2 f_equal.
    rewrite <- Z.mul_assoc, <- Z.pow_add_r by lia. do 2 f_equal. lia.
  Qed.

  Lemma shl_small x n : 0 <= n < pw -> 0 <= x -> x * 2 ^ n < 2 ^ pw ->
    shl pw x n = Some (x * 2 ^ n).
  Proof.
    intros Hn Hx Hs. unfold shl, cshl. cbn [fst snd]. pose proof P_width as Hw.
    assert (promo (P pw) = P pw) as ->.
    { unfold P, promo, T. cbn [iwidth]. destruct (Z.ltb_spec pw 32) as [Hl|Hl]; [reflexivity|].
      cbn [iwidth]. destruct (Z.ltb_spec pw 32); [lia|reflexivity]. }
    destruct (andb _ _) eqn:E; [|lia]. cbn [option_map snd]. rewrite Z.shiftl_mul_pow2 by lia.
    rewrite wrap_id; [reflexivity| |].
    - unfold P, promo, T, ity_ok. cbn [iwidth]. destruct (Z.ltb_spec pw 32); cbn; lia.
    - assert (0 <= x * 2 ^ n) by (apply Z.mul_nonneg_nonneg; lia).
      unfold P, promo, T, in_range, imin, imax. cbn [iwidth].
      destruct (Z.ltb_spec pw 32) as [Hl|Hl]; cbn [isigned iwidth t_int]; [|lia].
      assert (2 ^ pw <= 2 ^ 30) by (apply Z.pow_le_mono_r; lia).
      change (2 ^ (32 - 1)) with 2147483648. change (2 ^ 30) with 1073741824 in *. lia.
  Qed.

  Lemma land_mask z : Z.land z (mask pw) = z mod B.
  Proof.
    rewrite mask_h. replace (B - 1) with (Z.ones h) by (rewrite Z.ones_equiv; lia).
    apply Z.land_ones. lia.
  Qed.

  (* disjoint or *)
  Lemma lor_plus a b n : 0 <= n -> 0 <= b < 2 ^ n -> a mod 2 ^ n = 0 -> Z.lor a b = a + b.
  Proof.
    intros Hn Hb Ha. pose proof (pow_pos2 n Hn).
    rewrite (Z.div_mod a (2 ^ n)) by lia. rewrite Ha, Z.add_0_r, (Z.mul_comm (2 ^ n)).
    now apply lor_disjoint_add.
  Qed.

  Lemma lor_plus_r a b n : 0 <= n -> 0 <= a < 2 ^ n -> b mod 2 ^ n = 0 -> Z.lor a b = a + b.
  Proof. intros. rewrite Z.lor_comm, (lor_plus b a n) by assumption. lia. Qed.

  (* ---------------------------------------------------------------- *)
  (* carry steps *)

  Lemma partial_add_ok a b c : 0 <= a < 2 ^ pw -> 0 <= b < 2 ^ pw -> 0 <= c <= 1 ->
    exists r c', partial_add pw a b c = Some (r, c') /\ 0 <= r < 2 ^ pw /\ 0 <= c' <= 1 /\
      r + 2 ^ pw * c' = a + b + c.
  Proof.
    intros Ha Hb Hc. unfold partial_add.
    destruct (ar_cong (a + b) ltac:(lia)) as [s1 [-> Hs1]]. cbn [obind].
    rewrite pt_mod, Hs1.
    set (l2 := (a + b) mod 2 ^ pw).
    assert (Hl2 : 0 <= l2 < 2 ^ pw) by (apply Z.mod_pos_bound; lia).
    destruct (ar_cong (l2 + c) ltac:(lia)) as [s2 [-> Hs2]]. cbn [obind].
    rewrite pt_mod, Hs2.
    set (l3 := (l2 + c) mod 2 ^ pw).
    assert (Hl3 : 0 <= l3 < 2 ^ pw) by (apply Z.mod_pos_bound; lia).
    assert (E2 : l2 = a + b \/ l2 = a + b - 2 ^ pw).
    { destruct (Z.lt_ge_cases (a + b) (2 ^ pw)).
      - left. apply Z.mod_small. lia.
      - right. unfold l2. replace (a + b) with (a + b - 2 ^ pw + 1 * 2 ^ pw) at 1 by lia.
        rewrite Z.mod_add by lia. apply Z.mod_small. lia. }
    assert (E3 : l3 = l2 + c \/ (l2 + c = 2 ^ pw /\ l3 = 0)).
    { destruct (Z.lt_ge_cases (l2 + c) (2 ^ pw)).
      - left. apply Z.mod_small. lia.
      - right. assert (l2 + c = 2 ^ pw) by lia. unfold l3. rewrite H0, Z.mod_same by lia. lia. }
    eexists _, _. split; [reflexivity|]. unfold b2z.
    pose proof M2 as HM. clear Hs1 Hs2. clearbody l2 l3. generalize dependent (2 ^ pw).
    intros M HM; intros.
    destruct (Z.ltb_spec l2 a), (Z.ltb_spec l3 l2); cbn [orb]; lia.
  Qed.

  Lemma partial_sub_ok a b c : 0 <= a < 2 ^ pw -> 0 <= b < 2 ^ pw -> 0 <= c <= 1 ->
    exists r c', partial_sub pw a b c = Some (r, c') /\ 0 <= r < 2 ^ pw /\ 0 <= c' <= 1 /\
      r - 2 ^ pw * c' = a - b - c.
  Proof.
    intros Ha Hb Hc. unfold partial_sub.
    destruct (ar_cong (a - b) ltac:(lia)) as [s1 [-> Hs1]]. cbn [obind].
    rewrite pt_mod, Hs1.
    set (l2 := (a - b) mod 2 ^ pw).
    assert (Hl2 : 0 <= l2 < 2 ^ pw) by (apply Z.mod_pos_bound; lia).
    destruct (ar_cong (l2 - c) ltac:(lia)) as [s2 [-> Hs2]]. cbn [obind].
    rewrite pt_mod, Hs2.
    set (l3 := (l2 - c) mod 2 ^ pw).
    assert (Hl3 : 0 <= l3 < 2 ^ pw) by (apply Z.mod_pos_bound; lia).
    assert (E2 : l2 = a - b \/ l2 = a - b + 2 ^ pw).
    { destruct (Z.lt_ge_cases (a - b) 0).
      - right. unfold l2. replace (a - b) with (a - b + 2 ^ pw + (-1) * 2 ^ pw) at 1 by lia.
        rewrite Z.mod_add by lia. apply Z.mod_small. lia.
      - left. apply Z.mod_small. lia. }
    assert (E3 : l3 = l2 - c \/ (l2 - c = -1 /\ l3 = 2 ^ pw - 1)).
    { destruct (Z.lt_ge_cases (l2 - c) 0).
      - right. assert (E : l2 - c = -1) by lia. unfold l3. rewrite E. split; [reflexivity|].
        replace (-1) with (2 ^ pw - 1 + (-1) * 2 ^ pw) by lia.
        rewrite Z.mod_add by lia. apply Z.mod_small. lia.
      - left. apply Z.mod_small. lia. }
    eexists _, _. split; [reflexivity|]. unfold b2z. rewrite !Z.gtb_ltb.
    pose proof M2 as HM. clear Hs1 Hs2. clearbody l2 l3. generalize dependent (2 ^ pw).
    intros M HM; intros.
    destruct (Z.ltb_spec a l2), (Z.ltb_spec l2 l3); cbn [orb]; lia.
  Qed.

  Lemma mul_step_ok x r y c : 0 <= x < B -> 0 <= r < B -> 0 <= y < B -> 0 <= c < B ->
    exists r' c', mul_step pw x r y c = Some (r', c') /\ 0 <= r' < B /\ 0 <= c' < B /\
      r' + B * c' = x * y + r + c.
  Proof.
    intros Hx Hr Hy Hc. pose proof B_pos as HB. pose proof BB as HBB. unfold mul_step.
    assert (0 <= x * y <= (B - 1) * (B - 1)) by nia.
    rewrite ar_small by nia. cbn [obind]. rewrite ar_small by nia. cbn [obind].
    rewrite ar_small by nia. cbn [obind].
    rewrite sw_h, shr_ok by lia. cbn [obind].
    set (v := x * y + r + c) in *. assert (Hv : 0 <= v < B * B) by (unfold v; nia).
    rewrite land_mask.
    pose proof (Z.mod_pos_bound v B ltac:(lia)). pose proof (Z.div_mod v B ltac:(lia)).
    assert (0 <= v / B < B).
    { split; [apply Z.div_pos; lia|]. apply Z.div_lt_upper_bound; lia. }
    rewrite !pt_id by nia. eexists _, _. split; [reflexivity|]. lia.
  Qed.

  Lemma add_step_ok u v c : 0 <= u < B -> 0 <= v < B -> 0 <= c <= 1 ->
    exists r' c', add_step pw u v c = Some (r', c') /\ 0 <= r' < B /\ 0 <= c' <= 1 /\
      r' + B * c' = u + v + c.
  Proof.
    intros Hu Hv Hc. pose proof B_pos as HB. pose proof BB as HBB. unfold add_step.
    rewrite ar_small by nia. cbn [obind]. rewrite ar_small by nia. cbn [obind].
    rewrite sw_h, shr_ok by lia. cbn [obind]. rewrite land_mask.
    set (z := u + v + c). pose proof (Z.mod_pos_bound z B ltac:(lia)).
    pose proof (Z.div_mod z B ltac:(lia)).
    assert (0 <= z / B < 2).
    { split; [apply Z.div_pos; lia|]. apply Z.div_lt_upper_bound; lia. }
    rewrite !pt_id by nia. eexists _, _. split; [reflexivity|]. lia.
  Qed.

  (* subtraction of digits in the promoted type *)
  Lemma ar_neg z : - B <= z < B -> exists z', ar pw z = Some z' /\
    (z' = z \/ (z < 0 /\ z' = z + 2 ^ pw)).
  Proof.
    intros Hz. pose proof B_pos as HB. pose proof BB as HBB.
    unfold ar, P, promo, T. cbn [iwidth].
    destruct (Z.ltb_spec pw 32) as [Hl|Hl].
    - unfold norm, in_rangeb, imin, imax. cbn [t_int isigned iwidth].
      assert (2 ^ pw <= 2 ^ 30) by (apply Z.pow_le_mono_r; lia).
      change (2 ^ (32 - 1)) with 2147483648. change (2 ^ 30) with 1073741824 in *.
      exists z. destruct (andb _ _) eqn:E; [auto|nia].
    - unfold norm. cbn [isigned option_map snd]. unfold wrap. cbn [isigned iwidth].
      eexists. split; [reflexivity|]. destruct (Z.lt_ge_cases z 0).
      + right. split; [assumption|]. rewrite <- (Z.mod_add z 1) by lia.
        rewrite Z.mul_1_l. apply Z.mod_small. nia.
      + left. apply Z.mod_small. nia.
  Qed.

  Lemma land_1 z : Z.land z 1 = z mod 2.
  Proof. change 1 with (Z.ones 1). now rewrite Z.land_ones by lia. Qed.

  Lemma sub_step_ok u v c : 0 <= u < B -> 0 <= v < B -> 0 <= c <= 1 ->
    exists r' c', sub_step pw u v c = Some (r', c') /\ 0 <= r' < B /\ 0 <= c' <= 1 /\
      r' - B * c' = u - v - c.
  Proof.
    intros Hu Hv Hc. pose proof B_pos as HB. pose proof BB as HBB. unfold sub_step.
    destruct (ar_neg (u - v) ltac:(lia)) as [z1 [-> H1]]. cbn [obind].
    assert (exists z2, ar pw (z1 - c) = Some z2 /\ (z2 = u - v - c \/
      (u - v - c < 0 /\ z2 = u - v - c + 2 ^ pw))) as [z2 [-> H2]].
    { destruct H1 as [->|[Hn ->]].
      - destruct (ar_neg (u - v - c) ltac:(lia)) as [z2 [-> H2]]. eauto.
      - rewrite ar_small by nia. eexists. split; [reflexivity|]. right. lia. }
    cbn [obind]. rewrite sw_h, shr_ok by lia. cbn [obind].
    rewrite land_mask, land_1.
    pose proof (Z.mod_pos_bound z2 B ltac:(lia)). pose proof (Z.mod_pos_bound (z2 / B) 2 ltac:(lia)).
    rewrite !pt_id by nia. eexists _, _. split; [reflexivity|].
    split; [lia|]. split; [lia|]. set (z := u - v - c) in *.
    assert (Hz : - B <= z < B) by lia.
    destruct (Z.lt_ge_cases z 0) as [Hn|Hp].
    - assert (E : z2 mod B = z + B /\ (z2 / B) mod 2 = 1).
      { destruct H2 as [->|[_ ->]].
        - split; [symmetry; apply (Z.mod_unique z B (-1)); lia|].
          replace (z / B) with (-1) by (apply (Z.div_unique z B (-1) (z + B)); lia). reflexivity.
        - rewrite HBB. replace (z + B * B) with ((z + B) + (B - 1) * B) by ring.
          rewrite Z.mod_add, Z.div_add by lia. rewrite Z.mod_small by lia.
          rewrite Z.div_small by lia. split; [reflexivity|].
          rewrite Z.add_0_l. rewrite (Z.pow_succ_r 2 (h - 1)) || idtac.
          replace B with (2 * 2 ^ (h - 1)) by (rewrite <- Z.pow_succ_r by lia; f_equal; lia).
          replace (2 * 2 ^ (h - 1) - 1) with (1 + (2 ^ (h - 1) - 1) * 2) by ring.
          rewrite Z.mod_add by lia. reflexivity. }
      destruct E as [-> ->]. lia.
    - destruct H2 as [->|[? _]]; [|lia]. rewrite Z.mod_small, Z.div_small by lia.
      rewrite Z.mod_0_l by lia. lia.
  Qed.

  (* ---------------------------------------------------------------- *)
  (* the same for whole digit strings *)

  Lemma zip_padd s : forall v c, digits (2 ^ pw) s -> digits (2 ^ pw) v -> length s = length v ->
    0 <= c <= 1 ->
    exists rs c', zipc (partial_add pw) s v c = Some (rs, c') /\ length rs = length s /\
      digits (2 ^ pw) rs /\ 0 <= c' <= 1 /\
      val (2 ^ pw) rs + (2 ^ pw) ^ Z.of_nat (length s) * c' = val (2 ^ pw) s + val (2 ^ pw) v + c.
  Proof.
    induction s as [|a s IH]; intros v c Hs Hv Hl Hc.
    - destruct v; [|discriminate]. exists [], c.
      cbn [zipc length val Z.of_nat]. rewrite Z.pow_0_r. repeat split; try lia. constructor.
    - destruct v as [|b v]; [discriminate|]. apply digits_cons in Hs as [Ha Hs]. apply digits_cons in Hv as [Hb Hv].
      destruct (partial_add_ok a b c) as (r & c1 & E1 & Hr & Hc1 & E2); try assumption.
      destruct (IH v c1) as (rs & c2 & E3 & Hlr & Hrs & Hc2 & E4); try assumption; [cbn in Hl; lia|].
      exists (r :: rs), c2. cbn [zipc]. rewrite E1. cbn [obind]. rewrite E3. cbn [obind length val].
      split; [reflexivity|]. split; [lia|]. split; [now constructor|]. split; [assumption|].
      rewrite Nat2Z.inj_succ, Z.pow_succ_r by lia. nia.
  Qed.

  Lemma zip_psub s : forall v c, digits (2 ^ pw) s -> digits (2 ^ pw) v -> length s = length v ->
    0 <= c <= 1 ->
    exists rs c', zipc (partial_sub pw) s v c = Some (rs, c') /\ length rs = length s /\
      digits (2 ^ pw) rs /\ 0 <= c' <= 1 /\
      val (2 ^ pw) rs - (2 ^ pw) ^ Z.of_nat (length s) * c' = val (2 ^ pw) s - val (2 ^ pw) v - c.
  Proof.
    induction s as [|a s IH]; intros v c Hs Hv Hl Hc.
    - destruct v; [|discriminate]. exists [], c.
      cbn [zipc length val Z.of_nat]. rewrite Z.pow_0_r. repeat split; try lia. constructor.
    - destruct v as [|b v]; [discriminate|]. apply digits_cons in Hs as [Ha Hs]. apply digits_cons in Hv as [Hb Hv].
      destruct (partial_sub_ok a b c) as (r & c1 & E1 & Hr & Hc1 & E2); try assumption.
      destruct (IH v c1) as (rs & c2 & E3 & Hlr & Hrs & Hc2 & E4); try assumption; [cbn in Hl; lia|].
      exists (r :: rs), c2. cbn [zipc]. rewrite E1. cbn [obind]. rewrite E3. cbn [obind length val].
      split; [reflexivity|]. split; [lia|]. split; [now constructor|]. split; [assumption|].
      rewrite Nat2Z.inj_succ, Z.pow_succ_r by lia. nia.
  Qed.

  Lemma zip_mul q s : 0 <= q < B -> forall v c, digits B s -> digits B v -> length s = length v ->
    0 <= c < B ->
    exists rs c', zipc (mul_step pw q) s v c = Some (rs, c') /\ length rs = length s /\
      digits B rs /\ 0 <= c' < B /\
      val B rs + B ^ Z.of_nat (length s) * c' = val B s + q * val B v + c.
  Proof.
    intros Hq. induction s as [|a s IH]; intros v c Hs Hv Hl Hc.
    - destruct v; [|discriminate]. exists [], c.
      cbn [zipc length val Z.of_nat]. rewrite Z.pow_0_r. repeat split; try lia. constructor.
    - destruct v as [|b v]; [discriminate|]. apply digits_cons in Hs as [Ha Hs]. apply digits_cons in Hv as [Hb Hv].
      destruct (mul_step_ok q a b c) as (r & c1 & E1 & Hr & Hc1 & E2); try assumption.
      destruct (IH v c1) as (rs & c2 & E3 & Hlr & Hrs & Hc2 & E4); try assumption; [cbn in Hl; lia|].
      exists (r :: rs), c2. cbn [zipc]. rewrite E1. cbn [obind]. rewrite E3. cbn [obind length val].
      split; [reflexivity|]. split; [lia|]. split; [now constructor|]. split; [assumption|].
      rewrite Nat2Z.inj_succ, Z.pow_succ_r by lia. nia.
  Qed.

  Lemma zip_add s : forall v c, digits B s -> digits B v -> length s = length v -> 0 <= c <= 1 ->
    exists rs c', zipc (add_step pw) s v c = Some (rs, c') /\ length rs = length s /\
      digits B rs /\ 0 <= c' <= 1 /\
      val B rs + B ^ Z.of_nat (length s) * c' = val B s + val B v + c.
  Proof.
    induction s as [|a s IH]; intros v c Hs Hv Hl Hc.
    - destruct v; [|discriminate]. exists [], c.
      cbn [zipc length val Z.of_nat]. rewrite Z.pow_0_r. repeat split; try lia. constructor.
    - destruct v as [|b v]; [discriminate|]. apply digits_cons in Hs as [Ha Hs]. apply digits_cons in Hv as [Hb Hv].
      destruct (add_step_ok a b c) as (r & c1 & E1 & Hr & Hc1 & E2); try assumption.
      destruct (IH v c1) as (rs & c2 & E3 & Hlr & Hrs & Hc2 & E4); try assumption; [cbn in Hl; lia|].
      exists (r :: rs), c2. cbn [zipc]. rewrite E1. cbn [obind]. rewrite E3. cbn [obind length val].
      split; [reflexivity|]. split; [lia|]. split; [now constructor|]. split; [assumption|].
      rewrite Nat2Z.inj_succ, Z.pow_succ_r by lia. nia.
  Qed.

  Lemma zip_sub s : forall v c, digits B s -> digits B v -> length s = length v -> 0 <= c <= 1 ->
    exists rs c', zipc (sub_step pw) s v c = Some (rs, c') /\ length rs = length s /\
      digits B rs /\ 0 <= c' <= 1 /\
      val B rs - B ^ Z.of_nat (length s) * c' = val B s - val B v - c.
  Proof.
    induction s as [|a s IH]; intros v c Hs Hv Hl Hc.
    - destruct v; [|discriminate]. exists [], c.
      cbn [zipc length val Z.of_nat]. rewrite Z.pow_0_r. repeat split; try lia. constructor.
    - destruct v as [|b v]; [discriminate|]. apply digits_cons in Hs as [Ha Hs]. apply digits_cons in Hv as [Hb Hv].
      destruct (sub_step_ok a b c) as (r & c1 & E1 & Hr & Hc1 & E2); try assumption.
      destruct (IH v c1) as (rs & c2 & E3 & Hlr & Hrs & Hc2 & E4); try assumption; [cbn in Hl; lia|].
      exists (r :: rs), c2. cbn [zipc]. rewrite E1. cbn [obind]. rewrite E3. cbn [obind length val].
      split; [reflexivity|]. split; [lia|]. split; [now constructor|]. split; [assumption|].
      rewrite Nat2Z.inj_succ, Z.pow_succ_r by lia. nia.
  Qed.
End Arith.
