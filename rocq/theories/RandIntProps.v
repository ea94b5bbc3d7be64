(* Theorems about rand_int(). *)
From Coq Require Import ZArith Bool List Lia ZifyBool.
From Verif Require Import CInt IntModel RandIntModel RandIntSpec RandIntProofs ArrLib.
Import ListNotations.
Open Scope Z_scope.

Lemma bits_needed_log d nb : 0 <= d -> bits_needed d nb -> nb = 1 + (if d =? 0 then -1 else Z.log2 d).
Proof.
  intros Hd (H0 & H1 & H2). destruct (Z.eqb_spec d 0) as [->|Ne].
  - specialize (H2 0 ltac:(lia) ltac:(cbn; lia)). lia.
  - pose proof (Z.log2_spec d ltac:(lia)) as (L1 & L2). pose proof (Z.log2_nonneg d).
    assert (nb <= Z.succ (Z.log2 d)) by (apply H2; lia).
    destruct (Z.eq_dec nb (Z.succ (Z.log2 d))); [lia|].
    pose proof (Z.pow_le_mono_r 2 nb (Z.log2 d) ltac:(lia) ltac:(lia)). lia.
Qed.

(* C135: the result is min plus the number made up of the first draws, that do not make up a
   number greater than max - min *)
Theorem rand_int_exact pw np sg min max nb rounds rest :
  1 <= pw -> (1 <= np)%nat -> fits pw np sg min -> fits pw np sg max -> min <= max -> bits_needed (max - min) nb ->
  Forall (valid_round pw nb) rounds ->
  rand_int pw np sg min max (length rounds) (concat rounds ++ rest) =
  match find (fun r => round_number pw r <=? max - min) rounds with
  | Some r => Some (min + round_number pw r)
  | None => None
  end.
Proof.
  intros Hp Hnp Fmin Fmax Hmm Hnb Hr. unfold rand_int. cbv zeta.
  destruct (get_parts_ok pw np Hp min) as (L1 & D1 & V1). destruct (get_parts_ok pw np Hp max) as (L2 & D2 & V2).
  destruct (sub_parts_ok pw Hp (get_parts pw np max) (get_parts pw np min) false ltac:(congruence) D2 D1) as (L3 & D3 & q & Hq & V3).
  rewrite L2, V1, V2, Z.sub_0_r in *. pose proof (P_pos pw np Hp) as Pp.
  set (diff := sub_parts pw (get_parts pw np max) (get_parts pw np min) false) in *.
  assert (Hd : 0 <= max - min < P pw np).
  { unfold fits in Fmin, Fmax. fold (P pw np) in Fmin, Fmax. destruct sg; lia. }
  assert (Vd : parts_value pw diff = max - min).
  { pose proof (pv_range pw diff Hp D3) as R. rewrite L3 in R.
    rewrite <- (Z.mod_small (parts_value pw diff) (P pw np)) by assumption. rewrite <- (Z.mod_small (max - min) (P pw np)) by assumption.
    rewrite (Zminus_mod max min). rewrite <- V3. rewrite Zminus_mod, Z.mod_mul by lia. rewrite Z.sub_0_r. now rewrite Z.mod_mod by lia. }
  rewrite find_msb_ok by assumption. cbn [obind]. rewrite Vd. rewrite <- (bits_needed_log (max - min) nb ltac:(lia) Hnb).
  destruct Hnb as (Hnb0 & _ & Hnb2).
  assert (Hnb3 : nb <= Z.of_nat np * pw) by (apply Hnb2; [lia|]; fold (P pw np); lia).
  rewrite Z.quot_div_nonneg, Z.rem_mod_nonneg by lia.
  rewrite (draw_loop_ok pw nb np diff Hp ltac:(lia) L3 D3 rounds rest (repeat 0 np) Hr).
  - rewrite Vd. destruct (find _ rounds) as [r|] eqn:Ef; [|reflexivity]. cbn [obind]. f_equal.
    apply find_some in Ef. destruct Ef as (Hin & Hle). apply Z.leb_le in Hle.
    rewrite Forall_forall in Hr. specialize (Hr r Hin). pose proof (valid_round_digs _ _ _ Hp Hr) as Dr.
    pose proof (valid_round_length _ _ _ Hr) as Lr. pose proof (num_draws_le pw nb np Hp ltac:(lia)) as ND.
    set (z := repeat 0 (np - num_draws pw nb)).
    assert (Lz : length (r ++ z) = np) by (rewrite app_length; unfold z; rewrite repeat_length; lia).
    assert (Dz : digs pw (r ++ z)).
    { apply Forall_app. split; [exact Dr|]. unfold z. apply Forall_forall. intros x Hx. apply repeat_spec in Hx. subst x.
      pose proof (B_ge2 pw Hp). lia. }
    assert (Vz : parts_value pw (r ++ z) = round_number pw r).
    { rewrite pv_app by assumption. unfold z. rewrite pv_zeros, pv_round. lia. }
    destruct (add_parts_ok pw Hp (get_parts pw np min) (r ++ z) false ltac:(congruence) D1 Dz) as (L4 & D4 & q' & Hq' & V4).
    rewrite L1, V1, Vz, Z.add_0_r in V4. unfold from_parts.
    pose proof (pv_range pw _ Hp D4) as R4. rewrite L4, L1 in R4.
    set (s := parts_value pw (add_parts pw (get_parts pw np min) (r ++ z) false)) in *.
    pose proof (valid_round_range pw nb r Hp Hnb0 Hr) as Rr.
    assert (C : exists k, s = min + round_number pw r + k * P pw np).
    { exists (- (min / P pw np) - q'). pose proof (Z.div_mod min (P pw np) ltac:(lia)). nia. }
    destruct C as (k & C).
    destruct np as [|np'].
    { lia. }
    assert (Hh : P pw (S np') = 2 * 2 ^ (Z.of_nat (S np') * pw - 1)).
    { unfold P. replace (Z.of_nat (S np') * pw) with (1 + (Z.of_nat (S np') * pw - 1)) at 1 by lia. rewrite Z.pow_add_r by nia. lia. }
    unfold fits in *. fold (P pw (S np')) in *. set (H := 2 ^ (Z.of_nat (S np') * pw - 1)) in *.
    destruct sg; cbn [andb].
    + destruct (Z.leb_spec H s); [assert (k = 1) by nia|assert (k = 0) by nia]; subst k; lia.
    + assert (k = 0) by nia. subst k. lia.
  - apply repeat_length.
  - pose proof (num_draws_le pw nb np Hp ltac:(lia)) as ND.
    replace np with (num_draws pw nb + (np - num_draws pw nb))%nat at 1 by lia. rewrite repeat_app, skipn_app, repeat_length, Nat.sub_diag.
    rewrite skipn_all2 by (rewrite repeat_length; lia). reflexivity.
Qed.
(* Two parts of 32 bits, numbers from -10 to 5000000000, one full part and one of 1 bit; the
   first draws are rejected *)
Example rand_int_case :
  1 <= 32 /\ (1 <= 2)%nat /\ fits 32 2 true (-10) /\ fits 32 2 true 5000000000 /\ bits_needed (5000000000 - -10) 33 /\
  Forall (valid_round 32 33) [[4000000000; 1]; [7; 1]] /\
  rand_int 32 2 true (-10) 5000000000 2 [4000000000; 1; 7; 1] = Some 4294967293.
Proof.
  split; [lia|]. split; [lia|]. split; [unfold fits; cbn; lia|]. split; [unfold fits; cbn; lia|]. split.
  - split; [lia|]. split; [reflexivity|]. intros k Hk H. destruct (Z.le_gt_cases 33 k) as [X|X]; [exact X|].
    pose proof (Z.pow_le_mono_r 2 k 32 ltac:(lia) ltac:(lia)) as Y. change (2 ^ 32) with 4294967296 in Y. lia.
  - split; [repeat constructor; cbn; lia|vm_compute; reflexivity].
Qed.

(* C136: every value from min to max is the result of exactly one set of draws of the first
   iteration, and more than half of the equally likely sets of draws are accepted *)
Theorem rand_int_uniform pw np sg min max nb :
  1 <= pw -> (1 <= np)%nat -> fits pw np sg min -> fits pw np sg max -> min <= max -> bits_needed (max - min) nb ->
  (forall r, valid_round pw nb r -> forall v, rand_int pw np sg min max 1 r = Some v -> min <= v <= max) /\
  (forall v, min <= v <= max -> exists! r, valid_round pw nb r /\ rand_int pw np sg min max 1 r = Some v) /\
  (forall n, 0 <= n < 2 ^ nb -> exists! r, valid_round pw nb r /\ round_number pw r = n) /\
  2 ^ nb < 2 * (max - min + 1).
Proof.
  intros Hp Hnp Fmin Fmax Hmm Hnb. pose proof (bits_needed_log (max - min) nb ltac:(lia) Hnb) as Enb. pose proof Hnb as (Hnb0 & Hnb1 & _).
  assert (X : forall r, valid_round pw nb r -> rand_int pw np sg min max 1 r =
    if round_number pw r <=? max - min then Some (min + round_number pw r) else None).
  { intros r Hr. pose proof (rand_int_exact pw np sg min max nb [r] [] Hp Hnp Fmin Fmax Hmm Hnb ltac:(constructor; [exact Hr|constructor])) as E.
    cbn [length concat] in E. rewrite !app_nil_r in E. rewrite E. cbn [find]. destruct (round_number pw r <=? max - min); reflexivity. }
  assert (U : forall r r', valid_round pw nb r -> valid_round pw nb r' -> round_number pw r = round_number pw r' -> r = r').
  { intros r r' H H' E. apply (pv_inj pw Hp).
    - rewrite (valid_round_length _ _ _ H), (valid_round_length _ _ _ H'). reflexivity.
    - now apply (valid_round_digs pw nb).
    - now apply (valid_round_digs pw nb).
    - now rewrite !pv_round. }
  split; [|split; [|split]].
  - intros r Hr v E. rewrite (X r Hr) in E. pose proof (valid_round_range pw nb r Hp Hnb0 Hr).
    destruct (Z.leb_spec (round_number pw r) (max - min)); [|discriminate]. injection E as <-. lia.
  - intros v Hv. destruct (valid_round_exists pw nb (v - min) Hp Hnb0 ltac:(lia)) as (r & Hr & Er).
    exists r. split.
    + split; [exact Hr|]. rewrite (X r Hr), Er. rewrite (proj2 (Z.leb_le _ _)) by lia. f_equal. lia.
    + intros r' (Hr' & E'). apply U; try assumption. rewrite (X r' Hr') in E'.
      destruct (Z.leb_spec (round_number pw r') (max - min)); [|discriminate]. injection E' as E'. lia.
  - intros n Hn. destruct (valid_round_exists pw nb n Hp Hnb0 Hn) as (r & Hr & Er). exists r. split; [now split|].
    intros r' (Hr' & E'). apply U; try assumption. congruence.
  - rewrite Enb. destruct (Z.eqb_spec (max - min) 0) as [E|E].
    + change (2 ^ (1 + -1)) with 1. lia.
    + pose proof (Z.log2_spec (max - min) ltac:(lia)) as (L1 & _). pose proof (Z.log2_nonneg (max - min)).
      rewrite Z.pow_add_r by lia. lia.
Qed.

(* C137: number of words needed to seed the engine *)
Theorem num_seed_words_exact W a b : 0 <= a -> 0 <= b -> a * b + 31 < 2 ^ W ->
  exists n, get_num_seed_words W a b = Some n /\ is_ceil_div (a * b) 32 n.
Proof.
  intros Ha Hb H. unfold get_num_seed_words, mul_sz, add_sz. rewrite (proj2 (Z.ltb_lt (a * b) _)) by lia. cbn [obind].
  rewrite (proj2 (Z.ltb_lt _ _)) by lia. cbn [obind]. eexists. split; [reflexivity|].
  unfold is_ceil_div. pose proof (Z.div_mod (a * b + (32 - 1)) 32 ltac:(lia)). pose proof (Z.mod_pos_bound (a * b + (32 - 1)) 32 ltac:(lia)). lia.
Qed.
Example num_seed_words_case : 624 * 32 + 31 < 2 ^ 64 /\ get_num_seed_words 64 624 32 = Some 624 /\ get_num_seed_words 64 312 64 = Some 624 /\
  get_num_seed_words 64 3 33 = Some 4.
Proof. repeat split. Qed.

Theorem num_input_words_exact W iw a : 1 <= iw -> 0 <= a -> a * 32 + iw + 2 < 2 ^ W ->
  exists n, get_num_input_words W iw a = Some (n + 3) /\ is_ceil_div (a * 32) iw n.
Proof.
  intros Hi Ha H. unfold get_num_input_words, mul_sz, add_sz. rewrite (proj2 (Z.ltb_lt (a * 32) _)) by lia. cbn [obind].
  rewrite (proj2 (Z.ltb_lt (a * 32 + (iw - 1)) _)) by lia. cbn [obind].
  pose proof (Z.div_mod (a * 32 + (iw - 1)) iw ltac:(lia)). pose proof (Z.mod_pos_bound (a * 32 + (iw - 1)) iw ltac:(lia)).
  pose proof (Z.div_pos (a * 32 + (iw - 1)) iw ltac:(lia) ltac:(lia)).
  rewrite (proj2 (Z.ltb_lt _ _)) by nia. eexists. split; [reflexivity|]. unfold is_ceil_div. lia.
Qed.
Example num_input_words_case : 624 * 32 + 64 + 2 < 2 ^ 64 /\ get_num_input_words 64 64 625 = Some (313 + 3) /\ is_ceil_div (625 * 32) 64 313.
Proof. repeat split; unfold is_ceil_div; lia. Qed.

Print Assumptions rand_int_exact.
Print Assumptions rand_int_uniform.
Print Assumptions num_seed_words_exact.
Print Assumptions num_input_words_exact.
