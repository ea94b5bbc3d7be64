(* scatter, gather, multiplication; the simple operators *)
From Coq Require Import ZArith Lia Bool List ZifyBool.
From Verif Require Import CInt IntModel IntProofs IntProofs4 IntProps ArrLib MulPrecModel MulPrecSpec
  MulPrecProofs.
Import ListNotations.
Open Scope Z_scope.

Section S.
  Variables (pw h : Z) (N : nat).
  Hypothesis Hh : 1 <= h.
  Hypothesis Hpw : pw = 2 * h.
  Hypothesis HN : (1 <= N)%nat.

  Notation B := (2 ^ h).
  Notation M := (2 ^ pw).

  Lemma ns_2N : ns pw N = (2 * N)%nat.
  Proof.
    unfold ns, width. rewrite (sw_h pw h) by assumption. rewrite Hpw.
    replace (Z.of_nat N * (2 * h) + h - 1) with (h - 1 + (2 * Z.of_nat N) * h) by ring.
    rewrite Z.div_add, Z.div_small by lia. lia.
  Qed.

  Fixpoint halves (l : list Z) : list Z :=
    match l with [] => [] | p :: l => p mod B :: p / B :: halves l end.

  Lemma halves_length l : length (halves l) = (2 * length l)%nat.
  Proof. induction l; cbn [halves length]; lia. Qed.

  Lemma halves_ok l : digits M l -> digits B (halves l) /\ val B (halves l) = val M l.
  Proof.
    pose proof (B_pos h Hh) as HB. pose proof (BB pw h Hh Hpw) as HBB.
    induction l as [|p l IH]; intros H; [split; [constructor|reflexivity]|].
    apply digits_cons in H as [Hp H]. destruct (IH H) as [H1 H2]. cbn [halves val].
    pose proof (Z.mod_pos_bound p B ltac:(lia)). pose proof (Z.div_mod p B ltac:(lia)).
    assert (0 <= p / B < B).
    { split; [apply Z.div_pos; lia|]. apply Z.div_lt_upper_bound; lia. }
    split.
    - apply digits_cons. split; [lia|]. apply digits_cons. auto.
    - rewrite H2, HBB. nia.
  Qed.

  Lemma div_mod_B p : 0 <= p < M -> 0 <= p / B < B.
  Proof.
    pose proof (B_pos h Hh) as HB. pose proof (BB pw h Hh Hpw) as HBB. intros.
    split; [apply Z.div_pos; lia|]. apply Z.div_lt_upper_bound; lia.
  Qed.

  Lemma scatter_loop_ok : forall rest p pre done i pi,
    digits M (p :: rest) -> length pre = pi -> i = (2 * pi)%nat -> length done = i ->
    length (pre ++ p :: rest) = N ->
    scatter_loop pw N (2 * S (length rest)) i pi p 0 (pre ++ p :: rest)
      (done ++ repeat 0 (2 * S (length rest))) = Some (done ++ halves (p :: rest)).
  Proof.
    pose proof (B_pos h Hh) as HB. pose proof (BB pw h Hh Hpw) as HBB.
    induction rest as [|p' rest IH]; intros p pre done i pi Hd Hpre Hi Hdone HNl.
    - replace (2 * S (length (@nil Z)))%nat with 2%nat by reflexivity.
      apply digits_cons in Hd as [Hp _]. pose proof (div_mod_B p Hp).
      cbn [scatter_loop repeat]. rewrite shr_ok by lia. cbn [obind].
      rewrite Z.pow_0_r, Z.div_1_r, pt_id by lia.
      rewrite (sw_h pw h) by assumption.
      destruct (Z.leb_spec pw (0 + h)); [lia|].
      rewrite (land_mask pw h) by assumption. pose proof (Z.mod_pos_bound p B ltac:(lia)).
      rewrite pt_id by nia. rewrite set_nth_mid by lia. cbn [obind].
      rewrite shr_ok by lia. cbn [obind]. rewrite Z.add_0_l.
      destruct (Z.leb_spec pw (h + h)); [|lia].
      rewrite app_length in HNl. cbn [length] in HNl.
      rewrite ns_2N. unfold check.
      destruct (orb _ _) eqn:E; [|lia]. cbn [obind].
      destruct (Nat.ltb_spec (S pi) N); [lia|].
      rewrite (land_mask pw h) by assumption. rewrite (pt_id pw (p / B)) by nia.
      rewrite (Z.mod_small (p / B)) by lia. rewrite (pt_id pw (p / B)) by nia.
      replace (done ++ p mod B :: [0]) with ((done ++ [p mod B]) ++ [0]) by (now rewrite <- app_assoc).
      rewrite set_nth_mid by (rewrite app_length; cbn; lia). cbn [obind].
      rewrite <- app_assoc. reflexivity.
    - replace (2 * S (length (p' :: rest)))%nat with (S (S (2 * S (length rest))))%nat
        by (cbn [length]; lia).
      apply digits_cons in Hd as [Hp Hd]. pose proof (div_mod_B p Hp).
      cbn [repeat]. remember (2 * S (length rest))%nat as K eqn:HK.
      cbn [scatter_loop]. rewrite shr_ok by lia. cbn [obind].
      rewrite Z.pow_0_r, Z.div_1_r, pt_id by lia.
      rewrite (sw_h pw h) by assumption.
      destruct (Z.leb_spec pw (0 + h)); [lia|].
      rewrite (land_mask pw h) by assumption. pose proof (Z.mod_pos_bound p B ltac:(lia)).
      rewrite pt_id by nia. rewrite set_nth_mid by lia. cbn [obind].
      rewrite shr_ok by lia. cbn [obind]. rewrite Z.add_0_l.
      destruct (Z.leb_spec pw (h + h)); [|lia].
      rewrite app_length in HNl. cbn [length] in HNl.
      unfold check. destruct (Nat.ltb_spec (S pi) N); [|lia]. cbn [orb obind].
      replace (pre ++ p :: p' :: rest) with ((pre ++ [p]) ++ p' :: rest) by (now rewrite <- app_assoc).
      rewrite nth_error_mid by (rewrite app_length; cbn; lia). cbn [obind].
      replace (h + h - pw) with 0 by lia. rewrite Z.sub_0_r.
      destruct (shl_cong pw h Hpw p' h ltac:(lia)) as [k ->]. cbn [obind].
      rewrite (pt_id pw (p / B)) by nia.
      assert (E : Z.lor (p / B) (p' * B + k * M) = p / B + (p' * B + k * M)).
      { apply (lor_plus_r _ _ h); [lia|lia|]. rewrite HBB.
        replace (p' * B + k * (B * B)) with ((p' + k * B) * B) by ring. apply Z.mod_mul. lia. }
      rewrite E, (land_mask pw h) by assumption.
      assert (E2 : pt pw (p / B + (p' * B + k * M)) mod B = p / B).
      { rewrite pt_mod, HBB. rewrite Z.rem_mul_r by lia.
        rewrite (Z.mul_comm B (_ mod B)), Z.mod_add, Z.mod_mod by lia.
        replace (p / B + (p' * B + k * (B * B))) with (p / B + (p' + k * B) * B) by ring.
        rewrite Z.mod_add by lia. apply Z.mod_small. lia. }
      rewrite E2, pt_id by nia.
      replace (done ++ p mod B :: 0 :: repeat 0 K) with ((done ++ [p mod B]) ++ 0 :: repeat 0 K)
        by (now rewrite <- app_assoc).
      rewrite set_nth_mid by (rewrite app_length; cbn; lia). cbn [obind].
      replace ((done ++ [p mod B]) ++ p / B :: repeat 0 K)
        with ((done ++ [p mod B; p / B]) ++ repeat 0 K) by (now rewrite <- !app_assoc).
      subst K. rewrite IH.
      + rewrite <- app_assoc. reflexivity.
      + assumption.
      + rewrite app_length. cbn. lia.
      + lia.
      + rewrite app_length. cbn. lia.
      + rewrite !app_length. cbn [length]. lia.
  Qed.

  Lemma scatter_ok x : parts_ok pw N x ->
    scatter pw N x = Some (halves x) /\ length (halves x) = (2 * N)%nat /\ digits B (halves x) /\
    val B (halves x) = uvalue pw x.
  Proof.
    intros [Hl Hd]. destruct (halves_ok x Hd) as [H1 H2].
    split; [|split; [rewrite halves_length; lia|auto]].
    unfold scatter. destruct x as [|p rest]; [cbn in Hl; lia|]. cbn [nth_error obind].
    rewrite ns_2N. rewrite <- Hl at 2 3. cbn [length] in *.
    rewrite <- (app_nil_l (repeat 0 (2 * S (length rest)))).
    apply (scatter_loop_ok rest p [] [] 0 0); cbn [length app]; auto; lia.
  Qed.

  Fixpoint pairs (l : list Z) : list Z :=
    match l with s0 :: s1 :: l => (s0 + B * s1) :: pairs l | _ => [] end.

  Lemma pairs_ok n : forall l, length l = (2 * n)%nat -> digits B l ->
    length (pairs l) = n /\ digits M (pairs l) /\ val M (pairs l) = val B l.
  Proof.
    pose proof (B_pos h Hh) as HB. pose proof (BB pw h Hh Hpw) as HBB.
    induction n as [|n IH]; intros l Hl Hd.
    - destruct l; [|cbn in Hl; lia]. repeat split. constructor.
    - destruct l as [|s0 [|s1 l]]; [cbn in Hl; lia | cbn in Hl; lia |].
      apply digits_cons in Hd as [H0 Hd]. apply digits_cons in Hd as [H1 Hd].
      destruct (IH l) as [E1 [E2 E3]]; [cbn in Hl; lia|assumption|].
      cbn [pairs length val]. split; [lia|]. split.
      + apply digits_cons. split; [nia|assumption].
      + rewrite E3, HBB. ring.
  Qed.

  Lemma gather_loop_ok : forall n s pre done i pi,
    digits B s -> length s = (2 * n)%nat -> length done = pi -> i = (2 * pi)%nat -> length pre = i ->
    (pi + n <= N)%nat ->
    gather_loop pw N (2 * n) i pi 0 0 (pre ++ s) (done ++ repeat 0 n) = Some (done ++ pairs s).
  Proof.
    pose proof (B_pos h Hh) as HB. pose proof (BB pw h Hh Hpw) as HBB.
    induction n as [|n IH]; intros s pre done i pi Hd Hs Hdone Hi Hpre HNl.
    - destruct s; [|cbn in Hs; lia]. reflexivity.
    - destruct s as [|s0 [|s1 s]]; [cbn in Hs; lia | cbn in Hs; lia |].
      apply digits_cons in Hd as [H0 Hd]. apply digits_cons in Hd as [H1 Hd].
      replace (2 * S n)%nat with (S (S (2 * n)))%nat by lia. cbn [repeat].
      cbn [gather_loop]. rewrite nth_error_mid by lia. cbn [obind].
      rewrite (shl_small pw h Hpw s0 0) by (rewrite ?Z.pow_0_r; nia). cbn [obind].
      rewrite Z.pow_0_r, Z.mul_1_r, Z.lor_0_l, pt_id by nia.
      rewrite (sw_h pw h) by assumption. rewrite Z.add_0_l.
      destruct (Z.leb_spec pw h); [lia|].
      replace (pre ++ s0 :: s1 :: s) with ((pre ++ [s0]) ++ s1 :: s) by (now rewrite <- app_assoc).
      rewrite nth_error_mid by (rewrite app_length; cbn; lia). cbn [obind].
      rewrite (shl_small pw h Hpw s1 h) by nia. cbn [obind].
      rewrite (lor_plus_r s0 (s1 * B) h) by (lia || (apply Z.mod_mul; lia)).
      rewrite pt_id by nia.
      destruct (Z.leb_spec pw (h + h)); [|lia].
      unfold check. destruct (Nat.ltb_spec pi N); [|lia]. cbn [obind].
      rewrite set_nth_mid by lia. cbn [obind].
      replace (h + h - pw) with 0 by lia. rewrite Z.sub_0_r, shr_ok by lia. cbn [obind].
      rewrite (Z.div_small s1) by lia. rewrite pt_id by nia.
      replace ((pre ++ [s0]) ++ s1 :: s) with ((pre ++ [s0; s1]) ++ s) by (now rewrite <- !app_assoc).
      replace (done ++ s0 + s1 * B :: repeat 0 n) with ((done ++ [s0 + s1 * B]) ++ repeat 0 n)
        by (now rewrite <- app_assoc).
      rewrite IH; rewrite ?app_length; cbn [length] in *; try lia; try assumption.
      rewrite <- app_assoc. cbn [app pairs]. rewrite (Z.mul_comm s1). reflexivity.
  Qed.

  Lemma gather_ok s : length s = (2 * N)%nat -> digits B s ->
    exists x, gather pw N s = Some x /\ parts_ok pw N x /\ uvalue pw x = val B s.
  Proof.
    intros Hl Hd. destruct (pairs_ok N s Hl Hd) as [H1 [H2 H3]].
    exists (pairs s). split; [|split; [split; assumption|assumption]].
    unfold gather. rewrite ns_2N. apply (gather_loop_ok N s [] [] 0 0); auto.
  Qed.

  Lemma digits_split l n : digits B l -> digits B (firstn n l) /\ digits B (skipn n l).
  Proof. intros H. rewrite <- (firstn_skipn n l) in H. now apply digits_app in H. Qed.

  Lemma mul_loop_ok a b : length a = (2 * N)%nat -> length b = (2 * N)%nat ->
    digits B a -> digits B b ->
    forall k i res, (i + k = 2 * N)%nat -> length res = (2 * N)%nat -> digits B res ->
    exists res', mul_loop pw N k i a b res = Some res' /\ length res' = (2 * N)%nat /\ digits B res' /\
      exists t, val B res' = val B res + B ^ Z.of_nat i * val B (skipn i a) * val B b
                           + t * B ^ Z.of_nat (2 * N).
  Proof.
    pose proof (B_pos h Hh) as HB. intros Hla Hlb Ha Hb.
    induction k as [|k IH]; intros i res Hi Hlr Hr.
    - exists res. split; [reflexivity|]. split; [assumption|]. split; [assumption|].
      exists 0. rewrite skipn_all2 by lia. cbn [val]. lia.
    - cbn [mul_loop].
      destruct (skipn i a) as [|x rest] eqn:Ea.
      { apply (f_equal (@length Z)) in Ea. rewrite skipn_length in Ea. cbn in Ea. lia. }
      assert (Ea' : skipn (S i) a = rest).
      { change (S i) with (1 + i)%nat. rewrite Nat.add_comm.
        replace (i + 1)%nat with (i + 1)%nat by lia.
        rewrite <- (firstn_skipn i a) at 1. rewrite skipn_app, Ea.
        rewrite skipn_all2 by (rewrite firstn_length; lia).
        rewrite firstn_length. replace (i + 1 - Nat.min i (length a))%nat with 1%nat by lia.
        reflexivity. }
      assert (Hx : nth_error a i = Some x).
      { rewrite <- (firstn_skipn i a), Ea. apply nth_error_mid. rewrite firstn_length. lia. }
      rewrite Hx. cbn [obind]. rewrite ns_2N.
      destruct (digits_split a i Ha) as [_ Ha2]. rewrite Ea in Ha2.
      apply digits_cons in Ha2 as [Hxr _].
      destruct (digits_split res i Hr) as [Hr1 Hr2].
      destruct (digits_split b (2 * N - i) Hb) as [Hb1 Hb2].
      assert (L1 : length (skipn i res) = (2 * N - i)%nat) by (rewrite skipn_length; lia).
      assert (L2 : length (firstn (2 * N - i) b) = (2 * N - i)%nat) by (rewrite firstn_length; lia).
      assert (L3 : length (firstn i res) = i) by (rewrite firstn_length; lia).
      destruct (zip_mul pw h Hh Hpw x (skipn i res) Hxr (firstn (2 * N - i) b) 0)
        as (rs & c' & E1 & Hlrs & Hrs & Hc & E2); try assumption; try lia.
      pose proof (carry_loop_spec (mul_step pw x) _ _ _ _ _ (2 * N - i) 0 i (firstn i res) [] []
        (skipn (2 * N - i) b) E1 L1 L2 ltac:(lia) eq_refl) as HC.
      rewrite !app_nil_r in HC. cbn [app] in HC. rewrite !firstn_skipn in HC.
      rewrite HC. cbn [obind].
      destruct (IH (S i) (firstn i res ++ rs)) as (res' & E3 & L4 & D4 & t & E4).
      { lia. } { rewrite app_length. lia. } { apply digits_app. auto. }
      exists res'. split; [assumption|]. split; [assumption|]. split; [assumption|].
      rewrite E4, Ea', val_app, L3.
      assert (Eb : val B b = val B (firstn (2 * N - i) b)
                 + B ^ Z.of_nat (2 * N - i) * val B (skipn (2 * N - i) b)).
      { rewrite <- (firstn_skipn (2 * N - i) b) at 1. rewrite val_app, L2. reflexivity. }
      assert (Er : val B res = val B (firstn i res) + B ^ Z.of_nat i * val B (skipn i res)).
      { rewrite <- (firstn_skipn i res) at 1. rewrite val_app, L3. reflexivity. }
      rewrite L1 in E2.
      assert (EP : B ^ Z.of_nat (2 * N) = B ^ Z.of_nat i * B ^ Z.of_nat (2 * N - i)).
      { rewrite <- Z.pow_add_r by lia. f_equal. lia. }
      rewrite Nat2Z.inj_succ, Z.pow_succ_r by lia. rewrite EP in *. cbn [val].
      set (Pi := B ^ Z.of_nat i) in *. set (Q := B ^ Z.of_nat (2 * N - i)) in *.
      exists (t - c' - x * val B (skipn (2 * N - i) b)).
      rewrite Er.
      replace (val B rs) with (val B (skipn i res) + x * val B (firstn (2 * N - i) b) - Q * c') by lia.
      set (F := val B (firstn (2 * N - i) b)) in *. set (Sb := val B (skipn (2 * N - i) b)) in *.
      clearbody Pi Q F Sb. rewrite Eb. ring.
  Qed.

  Lemma pow_2N : B ^ Z.of_nat (2 * N) = 2 ^ (Z.of_nat N * pw).
  Proof. rewrite <- Z.pow_mul_r by lia. f_equal. lia. Qed.

  Lemma powMN : M ^ Z.of_nat N = 2 ^ (Z.of_nat N * pw).
  Proof. rewrite <- Z.pow_mul_r by lia. f_equal. lia. Qed.

  Notation W := (Z.of_nat N * pw).

  Lemma uvalue_range x : parts_ok pw N x -> 0 <= uvalue pw x < 2 ^ W.
  Proof.
    intros [Hl Hd]. pose proof (M2 pw h Hh Hpw). unfold uvalue.
    pose proof (val_range M x ltac:(lia) Hd). rewrite Hl, powMN in *. lia.
  Qed.

  Lemma mul_ok x y : parts_ok pw N x -> parts_ok pw N y ->
    exists z, mul pw N x y = Some z /\ parts_ok pw N z /\
      uvalue pw z = (uvalue pw x * uvalue pw y) mod 2 ^ W.
  Proof.
    intros Hx Hy. unfold mul.
    destruct (scatter_ok x Hx) as (-> & L1 & D1 & V1). cbn [obind].
    destruct (scatter_ok y Hy) as (-> & L2 & D2 & V2). cbn [obind]. rewrite ns_2N.
    pose proof (B_pos h Hh) as HB.
    destruct (mul_loop_ok (halves x) (halves y) L1 L2 D1 D2 (2 * N) 0 (repeat 0 (2 * N)))
      as (res & -> & L3 & D3 & t & E).
    { lia. } { apply repeat_length. } { apply digits_zeros. lia. }
    cbn [obind]. destruct (gather_ok res L3 D3) as (z & -> & Hz & Vz).
    exists z. split; [reflexivity|]. split; [assumption|].
    pose proof (uvalue_range z Hz) as R. rewrite Vz in *. rewrite E in *.
    rewrite val_zeros, skipn_O, V1, V2, pow_2N in *. cbn [Z.of_nat] in *.
    rewrite Z.pow_0_r, Z.mul_1_l, Z.add_0_l in *.
    rewrite <- (Z.mod_add _ t) by lia. symmetry. apply Z.mod_small. exact R.
  Qed.

  Lemma add_ok x y : parts_ok pw N x -> parts_ok pw N y ->
    exists z, add pw N x y = Some z /\ parts_ok pw N z /\
      uvalue pw z = (uvalue pw x + uvalue pw y) mod 2 ^ W.
  Proof.
    intros [Lx Dx] [Ly Dy]. unfold add.
    destruct (zip_padd pw h Hh Hpw x y 0) as (rs & c & E1 & L & D & Hc & E2); try assumption; try lia.
    pose proof (carry_loop_spec _ _ _ _ _ _ N 0 0 [] [] [] [] E1 ltac:(lia) ltac:(lia) eq_refl eq_refl)
      as HC.
    rewrite !app_nil_r in HC. cbn [app] in HC. rewrite HC. cbn [obind].
    assert (Hz : parts_ok pw N rs) by (split; [lia|assumption]).
    exists rs. split; [reflexivity|]. split; [assumption|].
    pose proof (uvalue_range rs Hz) as R. unfold uvalue in *.
    rewrite Lx, powMN in E2.
    replace (val M x + val M y) with (val M rs + c * 2 ^ W) by lia.
    rewrite Z.mod_add by lia. symmetry. now apply Z.mod_small.
  Qed.

  Lemma sub_ok x y : parts_ok pw N x -> parts_ok pw N y ->
    exists z, sub pw N x y = Some z /\ parts_ok pw N z /\
      uvalue pw z = (uvalue pw x - uvalue pw y) mod 2 ^ W.
  Proof.
    intros [Lx Dx] [Ly Dy]. unfold sub.
    destruct (zip_psub pw h Hh Hpw x y 0) as (rs & c & E1 & L & D & Hc & E2); try assumption; try lia.
    pose proof (carry_loop_spec _ _ _ _ _ _ N 0 0 [] [] [] [] E1 ltac:(lia) ltac:(lia) eq_refl eq_refl)
      as HC.
    rewrite !app_nil_r in HC. cbn [app] in HC. rewrite HC. cbn [obind].
    assert (Hz : parts_ok pw N rs) by (split; [lia|assumption]).
    exists rs. split; [reflexivity|]. split; [assumption|].
    pose proof (uvalue_range rs Hz) as R. unfold uvalue in *.
    rewrite Lx, powMN in E2.
    replace (val M x - val M y) with (val M rs + (- c) * 2 ^ W) by lia.
    rewrite Z.mod_add by lia. symmetry. now apply Z.mod_small.
  Qed.

  Lemma zero_ok : parts_ok pw N (zero N) /\ uvalue pw (zero N) = 0.
  Proof.
    pose proof (M2 pw h Hh Hpw). split; [split|].
    - apply repeat_length.
    - apply digits_zeros. lia.
    - apply val_zeros.
  Qed.

  Lemma neg_ok x : parts_ok pw N x ->
    exists z, neg pw N x = Some z /\ parts_ok pw N z /\ uvalue pw z = (- uvalue pw x) mod 2 ^ W.
  Proof.
    intros Hx. destruct zero_ok as [Hz Vz]. destruct (sub_ok _ _ Hz Hx) as (z & E & Hz' & V).
    exists z. split; [exact E|]. split; [assumption|]. now rewrite V, Vz.
  Qed.

  (* the loops that fill an array *)
  Lemma fill_all f l : length l = N -> (forall k, (k < N)%nat -> f k = nth_error l k) ->
    fill_loop f N 0 (zero N) = Some l.
  Proof.
    intros Hl Hf.
    pose proof (fill_loop_spec f l N 0 [] (zero N) [] Hf Hl (repeat_length 0 N) eq_refl) as H.
    now rewrite !app_nil_r in H.
  Qed.

  Lemma nth_error_nth_Z (l : list Z) k : (k < length l)%nat -> nth_error l k = Some (nth k l 0).
  Proof. intros. now apply nth_error_nth'. Qed.

  Lemma compl_val x : digits M x ->
    val M (map (fun p => pt pw (Z.lnot p)) x) = M ^ Z.of_nat (length x) - 1 - val M x /\
    digits M (map (fun p => pt pw (Z.lnot p)) x).
  Proof.
    pose proof (M2 pw h Hh Hpw). induction x as [|p x IH]; intros Hd.
    - split; [reflexivity|constructor].
    - apply digits_cons in Hd as [Hp Hd]. destruct (IH Hd) as [E1 E2].
      assert (E : pt pw (Z.lnot p) = M - 1 - p).
      { rewrite pt_mod. unfold Z.lnot. rewrite <- (Z.mod_add _ 1) by lia.
        rewrite Z.mod_small; lia. }
      cbn [map val length]. rewrite E1, E. split.
      + rewrite Nat2Z.inj_succ, Z.pow_succ_r by lia. ring.
      + apply digits_cons. split; [lia|assumption].
  Qed.

  Lemma compl_ok x : parts_ok pw N x ->
    exists z, compl pw N x = Some z /\ parts_ok pw N z /\ uvalue pw z = 2 ^ W - 1 - uvalue pw x.
  Proof.
    intros [Hl Hd]. destruct (compl_val x Hd) as [E1 E2].
    exists (map (fun p => pt pw (Z.lnot p)) x). unfold compl. rewrite fill_all with
      (l := map (fun p => pt pw (Z.lnot p)) x).
    - split; [reflexivity|]. split; [split; [now rewrite map_length|assumption]|].
      unfold uvalue. now rewrite E1, Hl, powMN.
    - now rewrite map_length.
    - intros k Hk. rewrite nth_error_map, nth_error_nth_Z by lia. reflexivity.
  Qed.

  Fixpoint zipw (f : Z -> Z -> Z) (x y : list Z) : list Z :=
    match x, y with a :: x, b :: y => f a b :: zipw f x y | _, _ => [] end.

  Lemma zipw_nth f : forall x y k a b, nth_error x k = Some a -> nth_error y k = Some b ->
    nth_error (zipw f x y) k = Some (f a b).
  Proof.
    induction x as [|p x IH]; intros y k a b Ha Hb; [destruct k; discriminate|].
    destruct y; [destruct k; discriminate|]. destruct k; cbn in *; [congruence|eauto].
  Qed.

  Lemma zipw_length f : forall x y, length x = length y -> length (zipw f x y) = length x.
  Proof. induction x; intros y H; destruct y; try discriminate; [reflexivity|]. cbn in *. f_equal. apply IHx. lia. Qed.

  (* a bitwise operation without generated bits *)
  Definition bitop (f : Z -> Z -> Z) (g : bool -> bool -> bool) : Prop :=
    g false false = false /\ (forall a b n, 0 <= n -> Z.testbit (f a b) n = g (Z.testbit a n) (Z.testbit b n)) /\
    (forall a b, 0 <= a -> 0 <= b -> 0 <= f a b).

  Lemma bitop_range f g a b n : bitop f g -> 0 <= n -> 0 <= a < 2 ^ n -> 0 <= b < 2 ^ n -> 0 <= f a b < 2 ^ n.
  Proof.
    intros (H1 & H2 & H3) Hn Ha Hb. split; [apply H3; lia|].
    destruct (Z.lt_ge_cases (f a b) (2 ^ n)) as [|Hge]; [assumption|exfalso].
    pose proof (pow_pos2 n Hn).
    assert (Hlog : n <= Z.log2 (f a b)) by (apply Z.log2_le_pow2; lia).
    pose proof (Z.bit_log2 (f a b) ltac:(lia)) as Hb2.
    rewrite H2 in Hb2 by lia.
    assert (forall c, 0 <= c < 2 ^ n -> Z.testbit c (Z.log2 (f a b)) = false) as Hz.
    { intros c Hc. destruct (Z.eq_dec c 0) as [->|]; [apply Z.bits_0|].
      apply Z.bits_above_log2; [lia|].
      enough (Z.log2 c < n) by lia. apply Z.log2_lt_pow2; lia. }
    rewrite !Hz in Hb2 by assumption. congruence.
  Qed.

  Lemma bitop_split f g a b u v n : bitop f g -> 0 <= n -> 0 <= a < 2 ^ n -> 0 <= b < 2 ^ n ->
    f (a + 2 ^ n * u) (b + 2 ^ n * v) = f a b + 2 ^ n * f u v.
  Proof.
    intros Hf Hn Ha Hb. pose proof (bitop_range f g a b n Hf Hn Ha Hb) as R.
    destruct Hf as (H1 & H2 & H3).
    assert (Hs : forall c w i, 0 <= i -> 0 <= c < 2 ^ n ->
      Z.testbit (c + 2 ^ n * w) i = if i <? n then Z.testbit c i else Z.testbit w (i - n)).
    { intros c w i Hi Hc. pose proof (pow_pos2 n Hn).
      rewrite (Z.mul_comm (2 ^ n)). destruct (Z.ltb_spec i n).
      - rewrite <- (Z.mod_pow2_bits_low _ n i) by lia. rewrite Z.mod_add by lia.
        apply Z.mod_pow2_bits_low. lia.
      - replace i with (i - n + n) at 1 by lia. rewrite <- Z.div_pow2_bits by lia.
        rewrite Z.div_add, Z.div_small by lia. f_equal. }
    apply Z.bits_inj'. intros i Hi. rewrite H2, !Hs by assumption.
    destruct (Z.ltb_spec i n); rewrite <- H2 by lia; reflexivity.
  Qed.

  Lemma zipw_val f g : bitop f g -> f 0 0 = 0 -> forall x y, digits M x -> digits M y -> length x = length y ->
    val M (zipw (fun a b => pt pw (f a b)) x y) = f (val M x) (val M y) /\
    digits M (zipw (fun a b => pt pw (f a b)) x y).
  Proof.
    intros Hf Hf0. pose proof (M2 pw h Hh Hpw).
    induction x as [|a x IH]; intros y Hx Hy Hl; destruct y as [|b y]; try discriminate.
    - split; [cbn; congruence|constructor].
    - apply digits_cons in Hx as [Ha Hx]. apply digits_cons in Hy as [Hb Hy].
      destruct (IH y Hx Hy) as [E1 E2]; [cbn in Hl; lia|]. cbn [zipw val].
      pose proof (bitop_range f g a b pw Hf ltac:(lia) Ha Hb) as R.
      rewrite pt_id by assumption. rewrite E1. split.
      + symmetry. apply (bitop_split f g); auto. lia.
      + apply digits_cons. auto.
  Qed.

  Lemma bitwise_ok f g x y : bitop f g -> f 0 0 = 0 -> parts_ok pw N x -> parts_ok pw N y ->
    exists z, bitwise pw N f x y = Some z /\ parts_ok pw N z /\
      uvalue pw z = f (uvalue pw x) (uvalue pw y).
  Proof.
    intros Hf Hf0 [Lx Dx] [Ly Dy].
    destruct (zipw_val f g Hf Hf0 x y Dx Dy ltac:(lia)) as [E1 E2].
    exists (zipw (fun a b => pt pw (f a b)) x y). unfold bitwise.
    rewrite fill_all with (l := zipw (fun a b => pt pw (f a b)) x y).
    - split; [reflexivity|]. split; [|exact E1]. split; [|assumption]. rewrite zipw_length; lia.
    - rewrite zipw_length; lia.
    - intros k Hk. rewrite (nth_error_nth_Z x), (nth_error_nth_Z y) by lia. cbn [obind].
      symmetry. apply (zipw_nth (fun a b => pt pw (f a b))); apply nth_error_nth_Z; lia.
  Qed.

  Lemma bitop_land : bitop Z.land andb.
  Proof.
    split; [reflexivity|]. split; [intros; apply Z.land_spec|].
    intros. apply Z.land_nonneg. lia.
  Qed.
  Lemma bitop_lor : bitop Z.lor orb.
  Proof.
    split; [reflexivity|]. split; [intros; apply Z.lor_spec|].
    intros. apply Z.lor_nonneg. lia.
  Qed.
  Lemma bitop_lxor : bitop Z.lxor xorb.
  Proof.
    split; [reflexivity|]. split; [intros; apply Z.lxor_spec|].
    intros. apply Z.lxor_nonneg. lia.
  Qed.

  (* ---------------------------------------------------------------- *)
  (* comparison *)

  Lemma firstn_snoc {A} (l : list A) k a : nth_error l k = Some a -> firstn (S k) l = firstn k l ++ [a].
  Proof.
    revert k. induction l as [|b l IH]; intros k E; [destruct k; discriminate|].
    destruct k; cbn in E; [inversion E; reflexivity|]. cbn. f_equal. now apply IH.
  Qed.

  Lemma digits_firstn b l k : digits b l -> digits b (firstn k l).
  Proof. intros H. rewrite <- (firstn_skipn k l) in H. now apply digits_app in H. Qed.

  Lemma eq_loop_ok x y : parts_ok pw N x -> parts_ok pw N y -> forall k, (k <= N)%nat ->
    eq_loop k x y = Some (val M (firstn k x) =? val M (firstn k y)).
  Proof.
    pose proof (M2 pw h Hh Hpw). intros [Lx Dx] [Ly Dy]. induction k as [|k IH]; intros Hk; [reflexivity|].
    cbn [eq_loop]. rewrite (nth_error_nth_Z x), (nth_error_nth_Z y) by lia. cbn [obind].
    rewrite !(firstn_snoc _ k (nth k _ 0)) by (apply nth_error_nth_Z; lia).
    rewrite !val_app, !firstn_length, IH by lia. cbn [val].
    replace (Nat.min k (length x)) with k by lia. replace (Nat.min k (length y)) with k by lia.
    pose proof (val_range M _ ltac:(lia) (digits_firstn _ x k Dx)) as R1.
    pose proof (val_range M _ ltac:(lia) (digits_firstn _ y k Dy)) as R2.
    rewrite firstn_length in R1, R2.
    replace (Nat.min k (length x)) with k in R1 by lia. replace (Nat.min k (length y)) with k in R2 by lia.
    rewrite !Z.mul_0_r, !Z.add_0_r. set (Pk := M ^ Z.of_nat k) in *.
    destruct (Z.eqb_spec (nth k x 0) (nth k y 0)) as [->|Hne].
    - f_equal. lia.
    - f_equal. symmetry. apply Z.eqb_neq. intros E. apply Hne. nia.
  Qed.

  Lemma equal_ok x y : parts_ok pw N x -> parts_ok pw N y ->
    equal N x y = Some (uvalue pw x =? uvalue pw y).
  Proof.
    intros Hx Hy. unfold equal. rewrite eq_loop_ok by (assumption || lia).
    destruct Hx as [Lx _], Hy as [Ly _]. rewrite !firstn_all2 by lia. reflexivity.
  Qed.

  Lemma less_loop_ok x y : parts_ok pw N x -> parts_ok pw N y -> forall k, (k <= N)%nat ->
    unsigned_less_loop k x y = Some (val M (firstn k x) <? val M (firstn k y)).
  Proof.
    pose proof (M2 pw h Hh Hpw). intros [Lx Dx] [Ly Dy]. induction k as [|k IH]; intros Hk; [reflexivity|].
    cbn [unsigned_less_loop]. rewrite (nth_error_nth_Z x), (nth_error_nth_Z y) by lia. cbn [obind].
    rewrite !(firstn_snoc _ k (nth k _ 0)) by (apply nth_error_nth_Z; lia).
    rewrite !val_app, !firstn_length, IH by lia. cbn [val].
    replace (Nat.min k (length x)) with k by lia. replace (Nat.min k (length y)) with k by lia.
    pose proof (val_range M _ ltac:(lia) (digits_firstn _ x k Dx)) as R1.
    pose proof (val_range M _ ltac:(lia) (digits_firstn _ y k Dy)) as R2.
    rewrite firstn_length in R1, R2.
    replace (Nat.min k (length x)) with k in R1 by lia. replace (Nat.min k (length y)) with k in R2 by lia.
    rewrite !Z.mul_0_r, !Z.add_0_r. set (Pk := M ^ Z.of_nat k) in *.
    destruct (Z.eqb_spec (nth k x 0) (nth k y 0)) as [->|Hne].
    - f_equal. lia.
    - f_equal. destruct (Z.ltb_spec (nth k x 0) (nth k y 0)); symmetry;
        [apply Z.ltb_lt | apply Z.ltb_ge]; nia.
  Qed.

  Lemma unsigned_less_ok x y : parts_ok pw N x -> parts_ok pw N y ->
    unsigned_less N x y = Some (uvalue pw x <? uvalue pw y).
  Proof.
    intros Hx Hy. unfold unsigned_less. rewrite less_loop_ok by (assumption || lia).
    destruct Hx as [Lx _], Hy as [Ly _]. rewrite !firstn_all2 by lia. reflexivity.
  Qed.

  Lemma pow_top : 2 ^ (W - 1) = M ^ Z.of_nat (N - 1) * 2 ^ (pw - 1).
  Proof.
    rewrite <- Z.pow_mul_r, <- Z.pow_add_r by nia. f_equal. rewrite Nat2Z.inj_sub by lia. ring.
  Qed.

  Lemma is_nonneg_ok sg x : parts_ok pw N x ->
    is_nonneg pw N sg x = Some (0 <=? value pw sg x).
  Proof.
    intros Hx. pose proof (uvalue_range x Hx) as R. destruct Hx as [Lx Dx].
    unfold is_nonneg, value. rewrite Lx. destruct sg; cbn [andb].
    - rewrite nth_error_nth_Z by lia. cbn [obind]. rewrite shr_ok by lia. cbn [obind]. f_equal.
      pose proof (firstn_snoc x (N - 1) (nth (N - 1) x 0) ltac:(apply nth_error_nth_Z; lia)) as E.
      rewrite firstn_all2 in E by lia.
      set (l := firstn (N - 1) x) in *. set (p := nth (N - 1) x 0) in *.
      assert (Ll : length l = (N - 1)%nat) by (unfold l; rewrite firstn_length; lia).
      assert (Dl : digits M l) by (now apply digits_firstn).
      assert (Hp : 0 <= p < M).
      { rewrite E in Dx. apply digits_app in Dx as [_ Dx]. now apply digits_cons in Dx. }
      pose proof (M2 pw h Hh Hpw).
      pose proof (val_range M l ltac:(lia) Dl) as Rl. rewrite Ll in Rl.
      assert (EV : uvalue pw x = val M l + M ^ Z.of_nat (N - 1) * p).
      { unfold uvalue. rewrite E, val_app, Ll. cbn [val]. ring. }
      pose proof pow_top as EW.
      assert (EW2 : 2 ^ W = 2 * 2 ^ (W - 1)).
      { rewrite <- Z.pow_succ_r by nia. f_equal. lia. }
      assert (EM : M = 2 * 2 ^ (pw - 1)).
      { rewrite <- Z.pow_succ_r by lia. f_equal. lia. }
      assert (0 < 2 ^ (pw - 1)) by (apply pow_pos2; lia).
      destruct (Z.leb_spec (2 ^ (W - 1)) (uvalue pw x)) as [Hc|Hc].
      + replace (p / 2 ^ (pw - 1)) with 1; [destruct (Z.leb_spec 0 (uvalue pw x - 2 ^ W)); [lia|reflexivity]|].
        apply (Z.div_unique p _ 1 (p - 2 ^ (pw - 1))); [|lia]. left.
        rewrite EV, EW in Hc. nia.
      + rewrite Z.div_small; [destruct (Z.leb_spec 0 (uvalue pw x)); [reflexivity|lia]|].
        split; [lia|]. rewrite EV, EW in Hc. nia.
    - f_equal. destruct (Z.leb_spec 0 (uvalue pw x)); lia.
  Qed.

  Lemma value_cases sg x : parts_ok pw N x ->
    (sg = false /\ value pw sg x = uvalue pw x) \/
    (sg = true /\ 0 <= uvalue pw x < 2 ^ (W - 1) /\ value pw sg x = uvalue pw x) \/
    (sg = true /\ 2 ^ (W - 1) <= uvalue pw x < 2 ^ W /\ value pw sg x = uvalue pw x - 2 ^ W).
  Proof.
    intros Hx. pose proof (uvalue_range x Hx). destruct Hx as [Lx _]. unfold value. rewrite Lx.
    destruct sg; cbn [andb]; [right|left; auto].
    destruct (Z.leb_spec (2 ^ (W - 1)) (uvalue pw x)); [right|left]; repeat split; lia.
  Qed.

  Lemma W_split : 2 ^ W = 2 * 2 ^ (W - 1).
  Proof. rewrite <- Z.pow_succ_r by nia. f_equal. lia. Qed.

  Lemma W_pos : 2 <= W.
  Proof. nia. Qed.

  Lemma less_ok sg x y : parts_ok pw N x -> parts_ok pw N y ->
    less pw N sg x y = Some (value pw sg x <? value pw sg y).
  Proof.
    intros Hx Hy. unfold less. rewrite unsigned_less_ok by assumption. cbn [obind].
    rewrite !is_nonneg_ok by assumption. cbn [obind]. f_equal.
    pose proof W_split. pose proof (uvalue_range x Hx). pose proof (uvalue_range y Hy).
    destruct (value_cases sg x Hx) as [[Es ->]|[(Es & ? & ->)|(Es & ? & ->)]];
    destruct (value_cases sg y Hy) as [[? ->]|[(? & ? & ->)|(? & ? & ->)]]; try congruence;
    repeat match goal with |- context [Z.leb 0 ?a] => destruct (Z.leb_spec 0 a) end;
    repeat match goal with |- context [Z.ltb ?a ?b] => destruct (Z.ltb_spec a b) end;
    cbn [Bool.eqb]; lia.
  Qed.

  Lemma big_ok sg : ity_ok (big_type pw N sg).
  Proof. pose proof W_pos. unfold ity_ok, big_type. cbn [isigned iwidth]. destruct sg; lia. Qed.

  Lemma value_cong sg x : parts_ok pw N x -> exists k, value pw sg x = uvalue pw x + k * 2 ^ W.
  Proof.
    intros Hx. destruct (value_cases sg x Hx) as [[_ ->]|[(_ & _ & ->)|(_ & _ & ->)]];
      [exists 0|exists 0|exists (-1)]; lia.
  Qed.

  Lemma value_range sg x : parts_ok pw N x -> in_range (big_type pw N sg) (value pw sg x).
  Proof.
    intros Hx. pose proof W_split. pose proof (uvalue_range x Hx).
    unfold in_range, imin, imax, big_type. cbn [isigned iwidth].
    destruct (value_cases sg x Hx) as [[-> ->]|[(-> & ? & ->)|(-> & ? & ->)]]; lia.
  Qed.

  (* a result whose unsigned value is right modulo 2^W represents the wrapped value *)
  Lemma value_wrap sg x z k : parts_ok pw N x -> uvalue pw x = z + k * 2 ^ W ->
    value pw sg x = wrap (big_type pw N sg) z.
  Proof.
    intros Hx E. rewrite <- (wrap_id (big_type pw N sg) (value pw sg x)) by
      (apply big_ok || now apply value_range).
    destruct (value_cong sg x Hx) as [k' E'].
    apply (wrap_of_cong _ _ _ (k + k') (big_ok sg)). unfold big_type. cbn [iwidth]. lia.
  Qed.

  Lemma value_inj sg x y : parts_ok pw N x -> parts_ok pw N y -> value pw sg x = value pw sg y -> x = y.
  Proof.
    intros Hx Hy E. pose proof (M2 pw h Hh Hpw).
    pose proof (uvalue_range x Hx). pose proof (uvalue_range y Hy). pose proof W_split.
    assert (uvalue pw x = uvalue pw y).
    { destruct (value_cases sg x Hx) as [[Es Ex]|[(Es & ? & Ex)|(Es & ? & Ex)]];
      destruct (value_cases sg y Hy) as [[? Ey]|[(? & ? & Ey)|(? & ? & Ey)]]; try congruence; lia. }
    destruct Hx, Hy. apply (val_inj M); try assumption; lia.
  Qed.

  (* ---------------------------------------------------------------- *)
  (* min, max, find_msb_pos *)

  Lemma find_msb_ok x : parts_ok pw N x ->
    find_msb_pos pw N x = Some (if uvalue pw x =? 0 then -1 else Z.log2 (uvalue pw x)).
  Proof.
    intros [Lx Dx]. pose proof (M2 pw h Hh Hpw) as HM.
    assert (G : forall k, (k <= N)%nat -> find_msb_loop pw k x =
      Some (if val M (firstn k x) =? 0 then -1 else Z.log2 (val M (firstn k x)))).
    { induction k as [|k IH]; intros Hk; [reflexivity|].
      cbn [find_msb_loop]. rewrite nth_error_nth_Z by lia. cbn [obind].
      rewrite (firstn_snoc _ k (nth k x 0)) by (apply nth_error_nth_Z; lia).
      rewrite val_app, firstn_length. replace (Nat.min k (length x)) with k by lia. cbn [val].
      pose proof (val_range M _ ltac:(lia) (digits_firstn _ x k Dx)) as R1.
      rewrite firstn_length in R1. replace (Nat.min k (length x)) with k in R1 by lia.
      assert (Hp : 0 <= nth k x 0 < M).
      { apply (proj1 (Forall_forall _ _) Dx). apply nth_In. lia. }
      set (p := nth k x 0) in *. rewrite Z.mul_0_r, Z.add_0_r.
      destruct (Z.eqb_spec p 0) as [->|Hp0]; cbn [negb].
      - rewrite Z.mul_0_r, Z.add_0_r. apply IH. lia.
      - destruct (find_msb_pos_log2 (T pw) p) as (m & Em & Hm & Hm2).
        { unfold ity_ok, T. cbn. lia. }
        { unfold IntSpec.representable, T. cbn [isigned iwidth]. lia. }
        { lia. }
        rewrite Em. cbn [obind]. f_equal.
        set (L := val M (firstn k x)) in *.
        assert (EM : M ^ Z.of_nat k = 2 ^ (Z.of_nat k * pw)).
        { rewrite <- Z.pow_mul_r by lia. f_equal. lia. }
        rewrite EM in *.
        assert (Hpos : 0 < 2 ^ (Z.of_nat k * pw)) by (apply pow_pos2; lia).
        destruct (Z.eqb_spec (L + 2 ^ (Z.of_nat k * pw) * p) 0); [nia|].
        symmetry. apply Z.log2_unique; [lia|].
        unfold Z.succ. rewrite <- Z.add_assoc, !Z.pow_add_r, <- !Z.pow_add_r by lia.
        rewrite (Z.pow_add_r 2 _ m) by lia. rewrite (Z.pow_add_r 2 _ (m + 1)) by lia. nia. }
    unfold find_msb_pos. rewrite G by lia. rewrite firstn_all2 by lia. reflexivity.
  Qed.

  Lemma zeros_split : zero N = repeat 0 (N - 1) ++ [0].
  Proof.
    unfold zero. replace N with (N - 1 + 1)%nat at 1 by lia. rewrite repeat_app. reflexivity.
  Qed.

  Lemma min_ok sg : exists z, min pw N sg = Some z /\ parts_ok pw N z /\
    value pw sg z = imin (big_type pw N sg).
  Proof.
    pose proof (M2 pw h Hh Hpw) as HM. unfold min. destruct sg.
    - assert (EM : M = 2 * 2 ^ (pw - 1)) by (rewrite <- Z.pow_succ_r by lia; f_equal; lia).
      rewrite (shl_small pw h) by (assumption || lia). cbn [obind]. rewrite Z.mul_1_l, pt_id by lia.
      rewrite zeros_split, set_nth_mid by (rewrite repeat_length; reflexivity).
      eexists. split; [reflexivity|].
      assert (Hz : parts_ok pw N (repeat 0 (N - 1) ++ [2 ^ (pw - 1)])).
      { split; [rewrite app_length, repeat_length; cbn; lia|]. apply digits_app.
        split; [apply digits_zeros; lia|]. apply digits_cons. split; [lia|constructor]. }
      split; [exact Hz|].
      assert (EV : uvalue pw (repeat 0 (N - 1) ++ [2 ^ (pw - 1)]) = 2 ^ (W - 1)).
      { unfold uvalue. rewrite val_app, val_zeros, repeat_length. cbn [val].
        rewrite pow_top. ring. }
      pose proof W_split. pose proof (uvalue_range _ Hz).
      destruct (value_cases true _ Hz) as [[? ?]|[(_ & ? & ?)|(_ & ? & ->)]]; [discriminate|lia|].
      rewrite EV. unfold imin, big_type. cbn [isigned iwidth]. lia.
    - destruct zero_ok as [Hz Vz]. exists (zero N). split; [reflexivity|]. split; [exact Hz|].
      destruct (value_cases false _ Hz) as [[? ->]|[(? & _)|(? & _)]]; try discriminate.
      rewrite Vz. reflexivity.
  Qed.

  Lemma val_max n : val M (repeat (M - 1) n) = M ^ Z.of_nat n - 1.
  Proof.
    induction n as [|n IH]; [reflexivity|]. cbn [repeat val]. rewrite IH, Nat2Z.inj_succ, Z.pow_succ_r by lia. ring.
  Qed.

  Lemma digits_max n : digits M (repeat (M - 1) n).
  Proof.
    pose proof (M2 pw h Hh Hpw). apply Forall_forall. intros x Hx. apply repeat_spec in Hx. lia.
  Qed.

  Lemma max_ok sg : exists z, max pw N sg = Some z /\ parts_ok pw N z /\
    value pw sg z = imax (big_type pw N sg).
  Proof.
    pose proof (M2 pw h Hh Hpw) as HM. unfold max.
    assert (EI : imax (T pw) = M - 1) by reflexivity. rewrite EI.
    rewrite fill_all with (l := repeat (M - 1) N).
    2: apply repeat_length.
    2: { intros k Hk. rewrite nth_error_nth_Z by (rewrite repeat_length; lia). f_equal.
         symmetry. apply nth_repeat_lt || idtac.
         apply (repeat_spec N). apply nth_In. rewrite repeat_length. lia. }
    cbn [obind]. pose proof W_split. destruct sg.
    - assert (EM : M = 2 * 2 ^ (pw - 1)) by (rewrite <- Z.pow_succ_r by lia; f_equal; lia).
      assert (0 < 2 ^ (pw - 1)) by (apply pow_pos2; lia).
      assert (EQ : Z.quot (M - 1) 2 = 2 ^ (pw - 1) - 1).
      { rewrite Z.quot_div_nonneg by lia. symmetry. apply (Z.div_unique _ 2 _ 1); lia. }
      rewrite EQ, pt_id by lia.
      assert (ER : repeat (M - 1) N = repeat (M - 1) (N - 1) ++ [M - 1]).
      { replace N with (N - 1 + 1)%nat at 1 by lia. rewrite repeat_app. reflexivity. }
      rewrite ER, set_nth_mid by (rewrite repeat_length; reflexivity).
      eexists. split; [reflexivity|].
      assert (Hz : parts_ok pw N (repeat (M - 1) (N - 1) ++ [2 ^ (pw - 1) - 1])).
      { split; [rewrite app_length, repeat_length; cbn; lia|]. apply digits_app.
        split; [apply digits_max|]. apply digits_cons. split; [lia|constructor]. }
      split; [exact Hz|].
      assert (EV : uvalue pw (repeat (M - 1) (N - 1) ++ [2 ^ (pw - 1) - 1]) = 2 ^ (W - 1) - 1).
      { unfold uvalue. rewrite val_app, val_max, repeat_length. cbn [val].
        rewrite pow_top. ring. }
      pose proof (uvalue_range _ Hz).
      destruct (value_cases true _ Hz) as [[? ?]|[(_ & ? & ->)|(_ & ? & ?)]]; [discriminate| |lia].
      rewrite EV. unfold imax, big_type. cbn [isigned iwidth]. reflexivity.
    - eexists. split; [reflexivity|].
      assert (Hz : parts_ok pw N (repeat (M - 1) N)) by (split; [apply repeat_length|apply digits_max]).
      split; [exact Hz|].
      destruct (value_cases false _ Hz) as [[? ->]|[(? & _)|(? & _)]]; try discriminate.
      unfold uvalue. rewrite val_max, powMN. reflexivity.
  Qed.
End S.
