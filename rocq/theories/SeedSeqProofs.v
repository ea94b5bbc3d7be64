(* Lemmas about SeedSeq. *)
From Coq Require Import ZArith Bool List Lia ZifyBool.
From Verif Require Import SeedSeqModel SeedSeqSpec ArrLib.
Import ListNotations.
Open Scope Z_scope.

Lemma mod32_eq x : mod32 x = x mod B32.
Proof. unfold mod32, B32. change (2 ^ 32 - 1) with (Z.ones 32). now rewrite Z.land_ones by lia. Qed.

Lemma mod_modulus w x : 32 <= w -> (modulus w x) mod B32 = x mod B32.
Proof.
  intros Hw. unfold modulus, B32.
  replace (2 ^ w) with (2 ^ (w - 32) * 2 ^ 32) by (rewrite <- Z.pow_add_r by lia; f_equal; lia).
  symmetry. apply Znumtheory.Zmod_div_mod.
  - reflexivity.
  - pose proof (Z.pow_pos_nonneg 2 (w - 32) ltac:(lia) ltac:(lia)). lia.
  - exists (2 ^ (w - 32)). ring.
Qed.

Lemma xw_ge w sw : 32 <= w -> 32 <= xw w sw.
Proof. intros H. unfold xw. destruct (Z.ltb_spec w sw); lia. Qed.

Lemma lxor_mod a b : (Z.lxor a b) mod B32 = Z.lxor (a mod B32) (b mod B32).
Proof.
  unfold B32. apply Z.bits_inj'. intros i Hi. rewrite Z.lxor_spec.
  destruct (Z.ltb_spec i 32).
  - rewrite !Z.mod_pow2_bits_low by lia. apply Z.lxor_spec.
  - rewrite !Z.mod_pow2_bits_high by lia. reflexivity.
Qed.

Lemma B32_pos : 0 < B32. Proof. reflexivity. Qed.
Lemma modB_range x : 0 <= x mod B32 < B32. Proof. apply Z.mod_pos_bound. reflexivity. Qed.

Lemma lxor_range a b : 0 <= a < B32 -> 0 <= b < B32 -> 0 <= Z.lxor a b < B32.
Proof.
  intros Ha Hb. rewrite <- (Z.mod_small a B32), <- (Z.mod_small b B32) by assumption. rewrite <- lxor_mod. apply modB_range.
Qed.

Lemma t27_model arg : Z.lxor arg (Z.shiftr (mod32 arg) 27) mod B32 = T27 (arg mod B32).
Proof.
  rewrite lxor_mod. unfold T27. rewrite mod32_eq, Z.shiftr_div_pow2 by lia. f_equal.
  apply Z.mod_small. pose proof (modB_range arg). split; [apply Z.div_pos; lia|].
  apply Z.div_lt_upper_bound; [reflexivity|]. unfold B32 in *. lia.
Qed.

Lemma add_mod_l a b : ((a mod B32) + b) mod B32 = (a + b) mod B32.
Proof. apply Z.add_mod_idemp_l. discriminate. Qed.

(* Parameters *)
Lemma gen_t_range n : 1 <= n -> 0 <= gen_t n <= n - 1.
Proof.
  intros Hn. unfold gen_t.
  destruct (Z.leb_spec 623 n); [lia|]. destruct (Z.leb_spec 68 n); [lia|]. destruct (Z.leb_spec 39 n); [lia|].
  destruct (Z.leb_spec 7 n); [lia|]. split; [apply Z.div_pos; lia|]. pose proof (Z.mul_div_le (n - 1) 2 ltac:(lia)).
  pose proof (Z.div_pos (n - 1) 2 ltac:(lia) ltac:(lia)). lia.
Qed.

Lemma gen_pq_range n : 1 <= n -> 0 <= gen_p n /\ gen_p n <= gen_q n /\ gen_q n <= n.
Proof.
  intros Hn. pose proof (gen_t_range n Hn). unfold gen_q, gen_p.
  pose proof (Z.mul_div_le (n - gen_t n) 2 ltac:(lia)). pose proof (Z.div_pos (n - gen_t n) 2 ltac:(lia) ltac:(lia)). lia.
Qed.

Lemma std_t n : (if n >=? 623 then 11 else if n >=? 68 then 7 else if n >=? 39 then 5
                 else if n >=? 7 then 3 else (n - 1) / 2) = gen_t n.
Proof.
  unfold gen_t. rewrite !Z.geb_leb. reflexivity.
Qed.

(* Representation of the output range *)
Definition rep (n : Z) (arr : list Z) (x : Z -> Z) : Prop :=
  Z.of_nat (length arr) = n /\
  forall j, 0 <= j < n -> get arr j = Some (x j) /\ 0 <= x j < B32.

Lemma rep_get n arr x k : 0 < n -> rep n arr x -> get arr (k mod n) = Some (at_ n x k) /\ 0 <= at_ n x k < B32.
Proof. intros Hn (_ & H). apply H. now apply Z.mod_pos_bound. Qed.

Lemma rep_set n arr x k v : 0 < n -> rep n arr x -> 0 <= v < B32 ->
  exists arr', set arr (k mod n) v = Some arr' /\ rep n arr' (upd n x k v).
Proof.
  intros Hn (L & H) Hv. pose proof (Z.mod_pos_bound k n Hn) as B. unfold set.
  destruct (set_nth arr (Z.to_nat (k mod n)) v) as [arr'|] eqn:E.
  - exists arr'. split; [reflexivity|]. split; [now rewrite (set_nth_length _ _ _ _ E)|].
    intros j Hj. unfold get, upd. rewrite (nth_error_set_nth _ _ _ _ _ E).
    destruct (Z.eqb_spec j (k mod n)) as [->|Ne].
    + rewrite Nat.eqb_refl. now split.
    + replace (Nat.eqb _ _) with false; [now apply H|]. symmetry. apply Nat.eqb_neq. lia.
  - rewrite set_nth_some in E by lia. discriminate.
Qed.

Lemma idx_eq sw n k d : 0 <= k + d < 2 ^ sw -> idx sw n k d = (k + d) mod n.
Proof. intros H. unfold idx, modulus. now rewrite (Z.mod_small (k + d)). Qed.

(* First pass *)
Lemma integrate_step_ok w sw n v calc m i arr x :
  32 <= w -> 1 <= n -> 0 <= m -> 0 <= i -> m + i + n < 2 ^ sw -> rep n arr x ->
  get arr (idx sw n (m + i) (-1)) = Some (at_ n x (m + i - 1)) ->
  (forall r, exists r2, calc r (m + i) i = Some r2 /\
    r2 mod B32 = (r + (if m + i =? 0 then Z.of_nat (length v)
                   else if m + i <=? Z.of_nat (length v) then (m + i) mod n + nth (Z.to_nat (m + i - 1)) v 0
                   else (m + i) mod n)) mod B32) ->
  exists arr', integrate_step w sw n calc m i arr = Some arr' /\ rep n arr' (std_step_1 n v (m + i) x).
Proof.
  intros Hw Hn Hm Hi Hb R Hprev Hc. unfold integrate_step.
  assert (Ek : modulus sw (m + i) = m + i) by (unfold modulus; apply Z.mod_small; lia). rewrite Ek. clear Ek.
  set (k := m + i) in *. cbv zeta.
  pose proof (gen_pq_range n Hn) as (P0 & P1 & P2).
  rewrite (idx_eq sw n k 0), (idx_eq sw n k (gen_p n)), (idx_eq sw n k (gen_q n)) by lia. rewrite Z.add_0_r.
  destruct (rep_get n arr x k ltac:(lia) R) as (G1 & B1).
  destruct (rep_get n arr x (k + gen_p n) ltac:(lia) R) as (G2 & B2).
  destruct (rep_get n arr x (k - 1) ltac:(lia) R) as (_ & B3).
  rewrite G1. cbn [obind]. rewrite G2. cbn [obind]. rewrite Hprev. cbn [obind].
  unfold std_step_1. rewrite std_t. fold (gen_p n). fold (gen_q n).
  set (arg := Z.lxor (Z.lxor (at_ n x k) (at_ n x (k + gen_p n))) (at_ n x (k - 1))) in *.
  assert (Ba : 0 <= arg < B32) by (unfold arg; repeat apply lxor_range; assumption).
  set (r1m := modulus w (1664525 * Z.lxor arg (Z.shiftr (mod32 arg) 27))).
  assert (E1 : r1m mod B32 = (1664525 * T27 arg) mod B32).
  { unfold r1m. rewrite mod_modulus by assumption. rewrite <- Z.mul_mod_idemp_r by discriminate.
    rewrite t27_model. rewrite (Z.mod_small arg) by assumption. reflexivity. }
  set (r1 := (1664525 * T27 arg) mod B32) in *.
  destruct (Hc r1m) as (r2m & -> & E2). cbn [obind].
  rewrite <- add_mod_l, E1 in E2. 
  set (r2 := (r1 + _) mod B32) in *.
  assert (E3 : mod32 (modulus w (at_ n x (k + gen_p n) + r1m)) = (at_ n x (k + gen_p n) + r1) mod B32).
  { rewrite mod32_eq, mod_modulus by assumption. rewrite <- Z.add_mod_idemp_r by discriminate. now rewrite E1. }
  rewrite E3.
  destruct (rep_set n arr x (k + gen_p n) ((at_ n x (k + gen_p n) + r1) mod B32) ltac:(lia) R (modB_range _)) as (arr1 & -> & R1).
  cbn [obind]. set (x1 := upd n x _ _) in *.
  destruct (rep_get n arr1 x1 (k + gen_q n) ltac:(lia) R1) as (-> & B4). cbn [obind].
  assert (E4 : mod32 (modulus (xw w sw) (at_ n x1 (k + gen_q n) + r2m)) = (at_ n x1 (k + gen_q n) + r2) mod B32).
  { rewrite mod32_eq, mod_modulus by now apply xw_ge. rewrite <- Z.add_mod_idemp_r by discriminate. now rewrite E2. }
  rewrite E4.
  destruct (rep_set n arr1 x1 (k + gen_q n) ((at_ n x1 (k + gen_q n) + r2) mod B32) ltac:(lia) R1 (modB_range _)) as (arr2 & -> & R2).
  cbn [obind]. set (x2 := upd n x1 _ _) in *. rewrite mod32_eq, E2.
  destruct (rep_set n arr2 x2 k r2 ltac:(lia) R2 (modB_range _)) as (arr3 & -> & R3).
  exists arr3. now split.
Qed.

(* The previous element: for k = 0 the index is not what the standard says unless n is a power
   of 2, but all elements are equal at that point *)
Definition prev_ok (sw n k : Z) (x : Z -> Z) : Prop :=
  0 < k \/ forall i j, x i = x j.

Lemma prev_get sw n k arr x : 1 <= n -> 0 <= k < 2 ^ sw -> rep n arr x -> prev_ok sw n k x ->
  get arr (idx sw n k (-1)) = Some (at_ n x (k - 1)).
Proof.
  intros Hn Hk R [H|H].
  - rewrite idx_eq by lia. change (k + -1) with (k - 1). apply (rep_get n arr x (k - 1) ltac:(lia) R).
  - unfold idx. destruct (rep_get n arr x (modulus sw (k + -1)) ltac:(lia) R) as (-> & _).
    f_equal. apply H.
Qed.

Lemma std_iter_app f a b : forall k x, std_iter f (a + b) k x = std_iter f b (k + Z.of_nat a) (std_iter f a k x).
Proof.
  induction a as [|a IH]; intros k x; cbn [Nat.add std_iter]; [now rewrite Z.add_0_r|].
  rewrite IH. f_equal. lia.
Qed.

Lemma integrate_loop_ok w sw n v calc m : 32 <= w -> 1 <= n -> 0 <= m ->
  forall count i arr x, 0 <= i -> m + i + Z.of_nat count + n <= 2 ^ sw -> rep n arr x -> prev_ok sw n (m + i) x ->
  (forall j r, i <= j < i + Z.of_nat count -> exists r2, calc r (m + j) j = Some r2 /\
    r2 mod B32 = (r + (if m + j =? 0 then Z.of_nat (length v)
                   else if m + j <=? Z.of_nat (length v) then (m + j) mod n + nth (Z.to_nat (m + j - 1)) v 0
                   else (m + j) mod n)) mod B32) ->
  exists arr', integrate_loop w sw n calc m i count arr = Some arr' /\
    rep n arr' (std_iter (std_step_1 n v) count (m + i) x).
Proof.
  intros Hw Hn Hm. induction count as [|count IH]; intros i arr x Hi Hb R Hp Hc; cbn [integrate_loop std_iter].
  - exists arr. now split.
  - rewrite Nat2Z.inj_succ in Hb, Hc.
    destruct (integrate_step_ok w sw n v calc m i arr x) as (arr1 & -> & R1); try assumption; try lia.
    + apply prev_get; try assumption. lia.
    + intros r. apply Hc. lia.
    + cbn [obind]. rewrite <- Z.add_assoc.
      apply IH; try assumption; try lia.
      * left. lia.
      * intros j r Hj. apply Hc. lia.
Qed.

Lemma integrate_ok w sw n v calc m s arr x : 32 <= w -> 1 <= n -> 0 <= m -> 0 <= s -> m + s + n <= 2 ^ sw ->
  rep n arr x -> prev_ok sw n m x ->
  (forall j r, 0 <= j < s -> exists r2, calc r (m + j) j = Some r2 /\
    r2 mod B32 = (r + (if m + j =? 0 then Z.of_nat (length v)
                   else if m + j <=? Z.of_nat (length v) then (m + j) mod n + nth (Z.to_nat (m + j - 1)) v 0
                   else (m + j) mod n)) mod B32) ->
  exists arr', integrate w sw n s calc (arr, m) = Some (arr', m + s) /\
    rep n arr' (std_iter (std_step_1 n v) (Z.to_nat s) m x).
Proof.
  intros Hw Hn Hm Hs Hb R Hp Hc. unfold integrate.
  destruct (integrate_loop_ok w sw n v calc m Hw Hn Hm (Z.to_nat s) 0 arr x) as (arr1 & -> & R1); try assumption; try lia.
  - now rewrite Z.add_0_r.
  - intros j r Hj. apply Hc. lia.
  - cbn [obind]. rewrite (proj2 (Z.ltb_lt _ _)) by lia. exists arr1. split; [reflexivity|]. now rewrite Z.add_0_r in R1.
Qed.

Lemma param_concat segs : param segs = concat segs.
Proof. induction segs; cbn; congruence. Qed.

Lemma add_sizes_ok sw segs : forall size, 0 <= size -> size + Z.of_nat (length (concat segs)) < 2 ^ sw ->
  add_sizes sw size segs = Some (size + Z.of_nat (length (concat segs))).
Proof.
  induction segs as [|seg segs IH]; intros size H0 H; cbn [add_sizes concat] in *.
  - cbn. f_equal. lia.
  - rewrite app_length, Nat2Z.inj_add in *. rewrite (proj2 (Z.ltb_lt _ _)) by lia. rewrite IH by lia. f_equal. lia.
Qed.

Lemma integrate_segs_ok w sw n v : 32 <= w -> 1 <= n -> Z.of_nat (length v) + 1 + n <= 2 ^ sw ->
  forall segs done arr x, v = done ++ concat segs -> rep n arr x ->
  exists arr', integrate_segs w sw n segs (arr, 1 + Z.of_nat (length done)) = Some (arr', 1 + Z.of_nat (length v)) /\
    rep n arr' (std_iter (std_step_1 n v) (length (concat segs)) (1 + Z.of_nat (length done)) x).
Proof.
  intros Hw Hn Hb. induction segs as [|seg segs IH]; intros done arr x Ev R; cbn [integrate_segs].
  - cbn [concat length std_iter] in *. rewrite app_nil_r in Ev. subst v. exists arr. now split.
  - cbn [concat] in Ev.
    assert (Lv : length v = (length done + length seg + length (concat segs))%nat) by (rewrite Ev, !app_length; lia).
    destruct (integrate_ok w sw n v
      (fun r k i => let? v0 := nth_error seg (Z.to_nat i) in
                    Some (modulus (xw w sw) (modulus (xw w sw) (r + k mod n) + v0)))
      (1 + Z.of_nat (length done)) (Z.of_nat (length seg)) arr x) as (arr1 & -> & R1); try assumption; try lia.
    + left. lia.
    + intros j r Hj. destruct (nth_error seg (Z.to_nat j)) as [y|] eqn:Ey.
      2:{ apply nth_error_None in Ey. lia. }
      cbn [obind]. eexists. split; [reflexivity|].
      rewrite (proj2 (Z.eqb_neq _ _)) by lia. rewrite (proj2 (Z.leb_le _ _)) by lia.
      assert (En : nth (Z.to_nat (1 + Z.of_nat (length done) + j - 1)) v 0 = y).
      { apply nth_error_nth. rewrite Ev. rewrite nth_error_app2 by lia. rewrite nth_error_app1 by lia.
        rewrite <- Ey. f_equal. lia. }
      rewrite En. rewrite mod_modulus by now apply xw_ge. rewrite <- add_mod_l, mod_modulus by now apply xw_ge.
      rewrite add_mod_l. f_equal. lia.
    + cbn [obind]. rewrite Nat2Z.id in R1.
      destruct (IH (done ++ seg) arr1 _ ltac:(now rewrite <- app_assoc) R1) as (arr2 & E2 & R2).
      rewrite app_length, Nat2Z.inj_add, Z.add_assoc in E2, R2. exists arr2. split; [exact E2|].
      cbn [concat]. rewrite app_length, std_iter_app. exact R2.
Qed.

(* Second pass *)
Lemma final_step_ok w sw n k arr x : 32 <= w -> 1 <= n -> 1 <= k -> k + n < 2 ^ sw -> rep n arr x ->
  exists arr', final_step w sw n k arr = Some arr' /\ rep n arr' (std_step_2 n k x).
Proof.
  intros Hw Hn Hk Hb R. unfold final_step. cbv zeta.
  pose proof (gen_pq_range n Hn) as (P0 & P1 & P2).
  rewrite (idx_eq sw n k 0), (idx_eq sw n k (gen_p n)), (idx_eq sw n k (gen_q n)), (idx_eq sw n k (-1)) by lia.
  rewrite Z.add_0_r. change (k + -1) with (k - 1).
  destruct (rep_get n arr x k ltac:(lia) R) as (G1 & B1).
  destruct (rep_get n arr x (k + gen_p n) ltac:(lia) R) as (G2 & B2).
  destruct (rep_get n arr x (k - 1) ltac:(lia) R) as (G3 & B3).
  rewrite G1. cbn [obind]. rewrite G2. cbn [obind]. rewrite G3. cbn [obind].
  unfold std_step_2. rewrite std_t. fold (gen_p n). fold (gen_q n).
  set (argm := modulus w (modulus w (at_ n x k + at_ n x (k + gen_p n)) + at_ n x (k - 1))).
  assert (Ea : argm mod B32 = (at_ n x k + at_ n x (k + gen_p n) + at_ n x (k - 1)) mod B32).
  { unfold argm. rewrite mod_modulus by assumption. rewrite <- add_mod_l, mod_modulus by assumption. apply add_mod_l. }
  set (r1m := modulus w (1566083941 * Z.lxor argm (Z.shiftr (mod32 argm) 27))).
  assert (E1 : r1m mod B32 = (1566083941 * T27 ((at_ n x k + at_ n x (k + gen_p n) + at_ n x (k - 1)) mod B32)) mod B32).
  { unfold r1m. rewrite mod_modulus by assumption. rewrite <- Z.mul_mod_idemp_r by discriminate. now rewrite t27_model, Ea. }
  set (r1 := (1566083941 * T27 _) mod B32) in *.
  assert (E2 : modulus (xw w sw) (r1m - k mod n) mod B32 = (r1 - k mod n) mod B32).
  { rewrite mod_modulus by now apply xw_ge. rewrite <- E1. symmetry. apply Zminus_mod_idemp_l. }
  set (r2m := modulus (xw w sw) (r1m - k mod n)) in *. set (r2 := (r1 - k mod n) mod B32) in *.
  assert (E3 : mod32 (Z.lxor (at_ n x (k + gen_p n)) r1m) = Z.lxor (at_ n x (k + gen_p n)) r1).
  { rewrite mod32_eq, lxor_mod, E1. now rewrite (Z.mod_small (at_ n x (k + gen_p n))). }
  rewrite E3.
  destruct (rep_set n arr x (k + gen_p n) (Z.lxor (at_ n x (k + gen_p n)) r1) ltac:(lia) R (lxor_range _ _ B2 (modB_range _))) as (arr1 & -> & R1).
  cbn [obind]. set (x1 := upd n x _ _) in *.
  destruct (rep_get n arr1 x1 (k + gen_q n) ltac:(lia) R1) as (-> & B4). cbn [obind].
  assert (E4 : mod32 (Z.lxor (at_ n x1 (k + gen_q n)) r2m) = Z.lxor (at_ n x1 (k + gen_q n)) r2).
  { rewrite mod32_eq, lxor_mod, E2. now rewrite (Z.mod_small (at_ n x1 (k + gen_q n))). }
  rewrite E4.
  destruct (rep_set n arr1 x1 (k + gen_q n) (Z.lxor (at_ n x1 (k + gen_q n)) r2) ltac:(lia) R1 (lxor_range _ _ B4 (modB_range _))) as (arr2 & -> & R2).
  cbn [obind]. rewrite mod32_eq, E2.
  destruct (rep_set n arr2 _ k r2 ltac:(lia) R2 (modB_range _)) as (arr3 & -> & R3).
  exists arr3. now split.
Qed.

Lemma final_loop_ok w sw n : 32 <= w -> 1 <= n ->
  forall count k arr x, 1 <= k -> k + Z.of_nat count + n <= 2 ^ sw -> rep n arr x ->
  exists arr', final_loop count w sw n k (k + Z.of_nat count) arr = Some arr' /\
    rep n arr' (std_iter (std_step_2 n) count k x).
Proof.
  intros Hw Hn. induction count as [|count IH]; intros k arr x Hk Hb R; cbn [final_loop std_iter].
  - rewrite (proj2 (Z.ltb_ge _ _)) by lia. exists arr. now split.
  - rewrite Nat2Z.inj_succ in *. rewrite (proj2 (Z.ltb_lt _ _)) by lia.
    destruct (final_step_ok w sw n k arr x) as (arr1 & -> & R1); try assumption; try lia.
    cbn [obind]. unfold modulus. rewrite Z.mod_small by lia.
    replace (k + Z.succ (Z.of_nat count)) with (k + 1 + Z.of_nat count) by lia. apply IH; try assumption; lia.
Qed.

Lemma rep_list num arr x : rep (Z.of_nat num) arr x -> arr = map (fun i => x (Z.of_nat i)) (seq 0 num).
Proof.
  intros (L & H). assert (L' : length arr = num) by lia. clear L. subst num.
  apply nth_ext with (d := 0) (d' := 0); [now rewrite map_length, seq_length|].
  intros i Hi. destruct (H (Z.of_nat i) ltac:(lia)) as (G & _). unfold get in G. rewrite Nat2Z.id in G.
  rewrite (nth_error_nth _ _ 0 G).
  rewrite (nth_indep _ 0 (x (Z.of_nat (length arr)))) by (now rewrite map_length, seq_length).
  rewrite (map_nth (fun i => x (Z.of_nat i))). rewrite seq_nth by assumption. reflexivity.
Qed.

Lemma generate_ok w sw segs num : 32 <= w -> 4 * (Z.of_nat (length (concat segs)) + Z.of_nat num) <= 2 ^ sw ->
  generate w sw segs num = Some (std_generate (concat segs) num).
Proof.
  intros Hw Hb. unfold generate. destruct num as [|num']; [reflexivity|].
  set (num := S num') in *. assert (Hn : 1 <= Z.of_nat num) by lia. clearbody num. clear num'.
  set (v := concat segs) in *. set (n := Z.of_nat num) in *. cbv zeta.
  unfold size. rewrite add_sizes_ok by (fold v; lia). fold v. cbn [obind]. rewrite Z.add_0_l.
  set (x0 := fun _ : Z => 2341178251).
  assert (R0 : rep n (repeat 2341178251 num) x0).
  { split; [now rewrite repeat_length|]. intros j Hj. split; [|split; [discriminate|reflexivity]].
    unfold get, x0. rewrite nth_error_repeat by lia. reflexivity. }
  destruct (integrate_ok w sw n v (fun r _ _ => Some (modulus (xw w sw) (r + Z.of_nat (length v)))) 0 1 (repeat 2341178251 num) x0)
    as (arr1 & -> & R1); try assumption; try lia.
  { right. reflexivity. }
  { intros j r Hj. eexists. split; [reflexivity|]. replace j with 0 by lia. cbn [Z.add Z.eqb].
    now rewrite mod_modulus by now apply xw_ge. }
  cbn [obind]. rewrite Z.add_0_l.
  destruct (integrate_segs_ok w sw n v Hw Hn ltac:(lia) segs [] arr1 _ eq_refl R1) as (arr2 & E2 & R2).
  cbn [length] in E2, R2. change (1 + Z.of_nat 0) with 1 in E2, R2. rewrite E2. cbn [obind snd]. fold v in R2.
  assert (X : std_iter (std_step_1 n v) (length v) 1 (std_iter (std_step_1 n v) (Z.to_nat 1) 0 x0)
    = std_iter (std_step_1 n v) (S (length v)) 0 x0) by reflexivity.
  rewrite X in R2. clear X.
  set (m := Z.max (Z.of_nat (length v) + 1) n).
  assert (Q : exists arr3, (if 1 + Z.of_nat (length v) <? n then
      integrate w sw n (n - (1 + Z.of_nat (length v))) (fun r k _ => Some (modulus (xw w sw) (r + k mod n))) (arr2, 1 + Z.of_nat (length v))
      else Some (arr2, 1 + Z.of_nat (length v))) = Some (arr3, m) /\
      rep n arr3 (std_iter (std_step_1 n v) (Z.to_nat m) 0 x0)).
  { destruct (Z.ltb_spec (1 + Z.of_nat (length v)) n) as [Y|Y].
    - destruct (integrate_ok w sw n v (fun r k _ => Some (modulus (xw w sw) (r + k mod n))) (1 + Z.of_nat (length v))
        (n - (1 + Z.of_nat (length v))) arr2 _ Hw Hn ltac:(lia) ltac:(lia) ltac:(lia) R2) as (arr3 & -> & R3).
      + left. lia.
      + intros j r Hj. eexists. split; [reflexivity|].
        rewrite (proj2 (Z.eqb_neq _ _)) by lia. rewrite (proj2 (Z.leb_gt _ _)) by lia.
        now rewrite mod_modulus by now apply xw_ge.
      + exists arr3. split; [do 2 f_equal; lia|].
        replace (Z.to_nat m) with (S (length v) + Z.to_nat (n - (1 + Z.of_nat (length v))))%nat by lia.
        rewrite std_iter_app. replace (0 + Z.of_nat (S (length v))) with (1 + Z.of_nat (length v)) by lia. exact R3.
    - exists arr2. split; [do 2 f_equal; lia|]. replace (Z.to_nat m) with (S (length v)) by lia. exact R2. }
  destruct Q as (arr3 & -> & R3). cbn [obind]. unfold modulus. rewrite Z.mod_small by lia.
  destruct (final_loop_ok w sw n Hw Hn num m arr3 _ ltac:(lia) ltac:(lia) R3) as (arr4 & E4 & R4). fold n in E4. rewrite E4.
  f_equal. unfold std_generate. apply rep_list. fold n. unfold std_final. fold m.
  replace (Z.to_nat n) with num by lia. exact R4.
Qed.
