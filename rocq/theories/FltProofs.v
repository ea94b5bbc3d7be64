(* Proofs about the model of the comparison and conversion between floating-point and integer values *)
From Coq Require Import ZArith Lia Bool.
From Verif Require Import CInt IntModel ArrLib FltModel FltSpec.
Open Scope Z_scope.

Section Format.
Context (p k fmax : Z).
Context (Hfmt : good_format p k fmax).

Lemma p_pos : 2 <= p. Proof. destruct Hfmt. lia. Qed.
Lemma p_le_k : p <= k. Proof. destruct Hfmt. lia. Qed.

Lemma pow_pos : forall e, 0 <= e -> 0 < 2 ^ e.
Proof. intros. apply Z.pow_pos_nonneg; lia. Qed.

Lemma representable_opp : forall n, representable p fmax n -> representable p fmax (- n).
Proof.
  intros n ((m & e & E & He & Hm) & H). split; [|lia].
  exists (- m), e. split; [rewrite E; ring | lia].
Qed.

Lemma converted_opp : forall i n, converted p k fmax i n -> converted p k fmax (- i) (- n).
Proof.
  intros i n (R & E & A). split; [apply representable_opp; assumption | split].
  - intro H. apply representable_opp in H. replace (- (- i * 2 ^ k)) with (i * 2 ^ k) in H by ring.
    rewrite (E H). ring.
  - intros q Hq. apply representable_opp in Hq. specialize (A _ Hq).
    replace (- i * 2 ^ k) with (- (i * 2 ^ k)) by ring. lia.
Qed.

(* ---- rounding down ---- *)

Lemma round_down_right : forall x, 0 <= x ->
  (exists m e, round_down p x = m * 2 ^ e /\ 0 <= e /\ 0 <= m < 2 ^ p) /\ round_down p x <= x /\
  (forall n, representable p fmax n -> n <= x -> n <= round_down p x).
Proof.
  intros x Hx. pose proof p_pos as Hp. unfold round_down, ulp.
  set (e := Z.max 0 (Z.log2 x + 1 - p)). set (u := 2 ^ e).
  assert (He : 0 <= e) by lia. assert (Hu : 0 < u) by (apply pow_pos; assumption).
  assert (Hlog : x < 2 ^ (Z.log2 x + 1)).
  { destruct (Z.eq_dec x 0) as [-> | N]; [cbn; lia|]. apply Z.log2_spec. lia. }
  assert (Hx2 : x < u * 2 ^ p).
  { unfold u. rewrite <- Z.pow_add_r by lia. eapply Z.lt_le_trans; [exact Hlog|].
    apply Z.pow_le_mono_r; lia. }
  pose proof (Z.div_mod x u ltac:(lia)) as D. pose proof (Z.mod_pos_bound x u Hu) as B.
  split; [|split].
  - exists (x / u), e. split; [reflexivity | split; [assumption | split]].
    + apply Z.div_pos; lia.
    + apply Z.div_lt_upper_bound; lia.
  - lia.
  - intros n ((m & e' & E & He' & Hm) & _) Hn.
    destruct (Z.le_gt_cases e e') as [C | C].
    + assert (Em : n = (m * 2 ^ (e' - e)) * u).
      { unfold u. rewrite E, <- Z.mul_assoc, <- Z.pow_add_r by lia. do 2 f_equal. lia. }
      rewrite Em. apply Z.mul_le_mono_nonneg_r; [lia|]. apply Z.div_le_lower_bound; lia.
    + assert (Ee : e = Z.log2 x + 1 - p) by lia.
      assert (Hxp : 0 < x).
      { destruct (Z.eq_dec x 0) as [X | N]; [|lia]. assert (Z.log2 x = 0) by (rewrite X; reflexivity). lia. }
      assert (H1 : 2 ^ (p - 1) * u <= x).
      { unfold u. rewrite <- Z.pow_add_r by lia. rewrite Ee.
        replace (p - 1 + (Z.log2 x + 1 - p)) with (Z.log2 x) by lia. apply Z.log2_spec. lia. }
      assert (H2 : 2 ^ (p - 1) <= x / u) by (apply Z.div_le_lower_bound; lia).
      assert (H3 : n <= 2 ^ (p - 1) * u).
      { assert (2 ^ p * 2 ^ e' <= 2 ^ (p - 1) * u).
        { unfold u. rewrite <- !Z.pow_add_r by lia. apply Z.pow_le_mono_r; lia. }
        pose proof (pow_pos e' He'). nia. }
      nia.
Qed.

Lemma zero_representable : representable p fmax 0.
Proof.
  pose proof p_pos. destruct Hfmt as (_ & e & He & ->). split.
  - exists 0, 0. pose proof (pow_pos p ltac:(lia)). split; [ring | lia].
  - pose proof (pow_pos p ltac:(lia)). pose proof (pow_pos e ltac:(lia)). nia.
Qed.

(* the magnitude limits the number of trailing zero bits from below *)
Lemma trailing_zeros : forall n j, representable p fmax n -> 0 <= j -> 2 ^ (p + j) <= Z.abs n ->
  exists q, n = q * 2 ^ (j + 1) /\ exists m e, q = m * 2 ^ e /\ 0 <= e /\ - 2 ^ p < m < 2 ^ p.
Proof.
  intros n j ((m & e & E & He & Hm) & _) Hj H. pose proof p_pos.
  assert (C : j + 1 <= e).
  { destruct (Z.le_gt_cases (j + 1) e) as [C | C]; [assumption | exfalso].
    assert (A : Z.abs n < 2 ^ p * 2 ^ e).
    { rewrite E, Z.abs_mul. pose proof (pow_pos e He). rewrite (Z.abs_eq (2 ^ e)) by lia. nia. }
    rewrite <- Z.pow_add_r in A by lia.
    assert (2 ^ (p + e) <= 2 ^ (p + j)) by (apply Z.pow_le_mono_r; lia). lia. }
  exists (m * 2 ^ (e - (j + 1))). split.
  - rewrite E, <- Z.mul_assoc, <- Z.pow_add_r by lia. do 2 f_equal. lia.
  - exists m, (e - (j + 1)). split; [reflexivity | lia].
Qed.

Lemma half_representable : forall n, representable p fmax n -> 2 ^ p <= Z.abs n ->
  exists h, n = h * 2 /\ representable p fmax h.
Proof.
  intros n R H. pose proof p_pos.
  destruct (trailing_zeros n 0 R ltac:(lia)) as (q & E & m & e & Eq & He & Hm); [rewrite Z.add_0_r; assumption|].
  exists q. change (2 ^ (0 + 1)) with 2 in E. split; [assumption | split].
  - exists m, e. auto.
  - destruct R as (_ & R). lia.
Qed.

(* ---- conversion from integer ---- *)

Lemma small_int_representable : forall i, Z.abs i < 2 ^ p -> Z.abs (i * 2 ^ k) <= fmax ->
  representable p fmax (i * 2 ^ k).
Proof.
  intros i H B. pose proof p_le_k. pose proof p_pos. split; [|lia]. exists i, k. split; [reflexivity | lia].
Qed.

Lemma div_even : forall h, div_radix (Fin (h * 2)) = Fin h.
Proof.
  intro h. unfold div_radix. rewrite Z.even_mul, orb_true_r. rewrite Z.div_mul by lia. reflexivity.
Qed.

(* the case where the integer is 2, or more *)
Lemma not_above_core : forall i n, 2 <= i -> i * 2 ^ k <= fmax -> converted p k fmax i n ->
  exists h, div_radix (Fin n) = Fin h /\ 0 <= Z.quot h (2 ^ k) <= i /\
    (Z.quot h (2 ^ k) <= Z.quot i 2 <-> n <= i * 2 ^ k) /\ n = h * 2.
Proof.
  intros i n Hi Hmax (R & Ex & A). pose proof p_pos as Hp. pose proof p_le_k as Hk.
  pose proof (pow_pos k ltac:(lia)) as Pk. pose proof (pow_pos p ltac:(lia)) as Pp.
  set (K := 2 ^ k) in *.
  assert (HpK : 2 ^ p <= K) by (apply Z.pow_le_mono_r; lia).
  assert (P4 : 4 <= 2 ^ p). { change 4 with (2 ^ 2). apply Z.pow_le_mono_r; lia. }
  assert (R2 : representable p fmax (2 * K)).
  { apply small_int_representable; [lia|]. fold K. nia. }
  assert (Hn : 2 * K <= n).
  { destruct (A _ R2) as (A1 & A2). destruct (Z.le_gt_cases (2 * K) n) as [C | C]; [assumption | exfalso].
    destruct (Z.eq_dec i 2) as [-> | N]; [|nia]. rewrite (Ex R2) in C. lia. }
  destruct (half_representable n R ltac:(lia)) as (h & E & Rh).
  exists h. rewrite E. rewrite div_even. split; [reflexivity|].
  assert (Hh : K <= h) by lia.
  rewrite !Z.quot_div_nonneg by lia.
  pose proof (Z.div_mod h K ltac:(lia)) as D. pose proof (Z.mod_pos_bound h K Pk) as B.
  pose proof (Z.div_mod i 2 ltac:(lia)) as D2. pose proof (Z.mod_pos_bound i 2 ltac:(lia)) as B2.
  assert (Hle : h <= i * K).
  { destruct (Z.le_gt_cases h (i * K)) as [C | C]; [assumption | exfalso].
    destruct (A _ Rh) as (A1 & A2). apply A2. lia. }
  split; [|split; [|reflexivity]].
  - split; [apply Z.div_pos; lia | apply Z.div_le_upper_bound; lia].
  - split.
    + intro Q. destruct (Z.le_gt_cases (h * 2) (i * K)) as [C | C]; [assumption | exfalso].
      assert (NR : ~ representable p fmax (i * K)).
      { intro H. rewrite <- E in C. rewrite (Ex H) in C. lia. }
      assert (Hbig : 2 ^ p <= i).
      { destruct (Z.le_gt_cases (2 ^ p) i) as [C' | C']; [assumption | exfalso].
        apply NR. apply small_int_representable; [lia|]. fold K. nia. }
      destruct (trailing_zeros n k R ltac:(lia)) as (q & Eq & _).
      { rewrite Z.abs_eq by lia. rewrite Z.pow_add_r by lia. fold K. nia. }
      rewrite Z.pow_add_r in Eq by lia. fold K in Eq. change (2 ^ 1) with 2 in Eq.
      assert (h = q * K) by nia. subst h. rewrite Z.div_mul in Q by lia. nia.
    + intro C. assert (h / K < i / 2 + 1); [|lia]. apply Z.div_lt_upper_bound; [lia|]. nia.
Qed.

(* ---- neighbours ---- *)

Lemma nextafter_right : forall n, representable p fmax n -> n <> 0 ->
  exists n', nextafter_0 p fmax (Fin n) = Fin n' /\ next_toward_zero p fmax n n'.
Proof.
  intros n R N. unfold nextafter_0. destruct (Z.eqb_spec n 0); [contradiction|].
  destruct (Z.ltb_spec 0 n) as [C | C].
  - destruct (round_down_right (n - 1) ltac:(lia)) as ((m & e & E & He & Hm) & B & M).
    eexists. split; [reflexivity|].
    pose proof (M 0 zero_representable ltac:(lia)) as Z0. destruct R as (R1 & R2).
    split; [|split; [|split; lia]].
    + split; [exists m, e; split; [assumption | lia] | lia].
    + intros _. split; [lia|]. intros x Hx Hlt. apply M; [assumption | lia].
  - destruct (round_down_right (- n - 1) ltac:(lia)) as ((m & e & E & He & Hm) & B & M).
    eexists. split; [reflexivity|].
    pose proof (M 0 zero_representable ltac:(lia)) as Z0. destruct R as (R1 & R2).
    split; [|split; [lia | split; [|lia]]].
    + split; [exists (- m), e; split; [rewrite E; ring | lia] | lia].
    + intros _. split; [lia|]. intros x Hx Hlt.
      pose proof (M (- x) (representable_opp _ Hx) ltac:(lia)). lia.
Qed.

Lemma next_unique : forall n a b, next_toward_zero p fmax n a -> next_toward_zero p fmax n b -> a = b.
Proof.
  intros n a b (Ra & A1 & A2 & A3) (Rb & B1 & B2 & B3).
  destruct (Z.lt_trichotomy n 0) as [C | [C | C]]; [|rewrite (A3 C), (B3 C); reflexivity|].
  - destruct (A2 C) as (Ba & Ma), (B2 C) as (Bb & Mb).
    pose proof (Ma b Rb ltac:(lia)). pose proof (Mb a Ra ltac:(lia)). lia.
  - destruct (A1 C) as (Ba & Ma), (B1 C) as (Bb & Mb).
    pose proof (Ma b Rb ltac:(lia)). pose proof (Mb a Ra ltac:(lia)). lia.
Qed.

(* ---- limits ---- *)
Context (of_int : Z -> flt).
Context (Hconv : forall i, - fmax <= i * 2 ^ k <= fmax -> exists n, of_int i = Fin n /\ converted p k fmax i n).

Lemma max_not_above_right : forall t i, 0 <= i -> i * 2 ^ k <= fmax -> in_range (promo t) 0 -> in_range (promo t) i ->
  exists n, max_float_not_above_nonneg_int p k fmax of_int t i = Some (Fin n) /\ greatest_not_above p k fmax n i.
Proof.
  intros t i Hi Hmax P0 Pi. unfold max_float_not_above_nonneg_int.
  pose proof p_pos. pose proof p_le_k. pose proof (pow_pos k ltac:(lia)) as Pk.
  destruct (Z.leb_spec 0 i) as [_ | C]; [cbn [negb] | lia].
  destruct (Hconv i) as (n & -> & Cv); [nia|].
  destruct (Z.leb_spec i 1) as [C | C]; cbn [or_else obind].
  - exists n. split; [reflexivity|]. destruct Cv as (R & Ex & A).
    assert (P4 : 4 <= 2 ^ p). { change 4 with (2 ^ 2). apply Z.pow_le_mono_r; lia. }
    rewrite (Ex ltac:(apply small_int_representable; lia)) in *.
    split; [assumption | split; [lia | intros; assumption]].
  - destruct (not_above_core i n ltac:(lia) Hmax Cv) as (h & Ed & Hq & Hiff & En).
    rewrite Ed. unfold to_int.
    assert (Hr : in_rangeb (promo t) (Z.quot h (2 ^ k)) = true).
    { unfold in_rangeb, in_range in *. apply andb_true_intro. split; apply Z.leb_le; lia. }
    rewrite Hr. cbn [obind]. destruct Cv as (R & Ex & A).
    destruct (Z.leb_spec (Z.quot h (2 ^ k)) (Z.quot i 2)) as [Q | Q].
    + exists n. split; [reflexivity|]. apply Hiff in Q. split; [assumption | split; [assumption|]].
      intros n' Hn' Hle. destruct (A n' Hn') as (A1 & A2).
      destruct (Z.le_gt_cases n' n) as [C' | C']; [assumption | exfalso].
      assert (n' = i * 2 ^ k) by lia. subst n'. rewrite (Ex Hn') in C'. lia.
    + assert (Hgt : i * 2 ^ k < n). { destruct (Z.le_gt_cases n (i * 2 ^ k)) as [C' | C']; [apply Hiff in C'; lia | assumption]. }
      destruct (nextafter_right n R ltac:(nia)) as (n' & En' & (R' & N1 & _)).
      exists n'. rewrite En'. split; [reflexivity|]. destruct (N1 ltac:(nia)) as (B & M).
      split; [assumption | split].
      * destruct (A n' R') as (A1 & A2). lia.
      * intros x Hx Hle. apply M; [assumption | lia].
Qed.

Lemma min_not_below_right : forall t i, i <= 0 -> - fmax <= i * 2 ^ k -> in_range (promo t) 0 -> in_range (promo t) i ->
  exists n, min_float_not_below_nonpos_int p k fmax of_int t i = Some (Fin n) /\ lowest_not_below p k fmax n i.
Proof.
  intros t i Hi Hmax P0 Pi. unfold min_float_not_below_nonpos_int.
  pose proof p_pos. pose proof p_le_k. pose proof (pow_pos k ltac:(lia)) as Pk.
  destruct (Z.leb_spec i 0) as [_ | C]; [cbn [negb] | lia].
  destruct (Hconv i) as (n & -> & Cv); [nia|].
  destruct (Z.leb_spec (-1) i) as [C | C]; cbn [or_else obind].
  - exists n. split; [reflexivity|]. destruct Cv as (R & Ex & A).
    assert (P4 : 4 <= 2 ^ p). { change 4 with (2 ^ 2). apply Z.pow_le_mono_r; lia. }
    rewrite (Ex ltac:(apply small_int_representable; lia)) in *.
    split; [assumption | split; [lia | intros; assumption]].
  - destruct (not_above_core (- i) (- n) ltac:(lia) ltac:(lia) (converted_opp _ _ Cv)) as (h & Ed & Hq & Hiff & En).
    assert (n = (- h) * 2) by lia. subst n. rewrite div_even. unfold to_int.
    rewrite Z.quot_opp_l by lia. rewrite Z.quot_opp_l in Hiff by lia.
    assert (Hr : in_rangeb (promo t) (- Z.quot h (2 ^ k)) = true).
    { unfold in_rangeb, in_range in *. apply andb_true_intro. split; apply Z.leb_le; lia. }
    rewrite Hr. cbn [obind]. destruct Cv as (R & Ex & A). set (n := - h * 2) in *.
    destruct (Z.leb_spec (Z.quot i 2) (- Z.quot h (2 ^ k))) as [Q | Q].
    + exists n. split; [reflexivity|]. assert (Hn : i * 2 ^ k <= n) by lia.
      split; [assumption | split; [assumption|]].
      intros n' Hn' Hle. destruct (A n' Hn') as (A1 & A2).
      destruct (Z.le_gt_cases n n') as [C' | C']; [assumption | exfalso].
      assert (n' = i * 2 ^ k) by lia. subst n'. rewrite (Ex Hn') in C'. lia.
    + assert (Hgt : n < i * 2 ^ k) by lia.
      destruct (nextafter_right n R ltac:(nia)) as (n' & En' & (R' & _ & N1 & _)).
      exists n'. rewrite En'. split; [reflexivity|]. destruct (N1 ltac:(nia)) as (B & M).
      split; [assumption | split].
      * destruct (A n' R') as (A1 & A2). lia.
      * intros x Hx Hle. apply M; [assumption | lia].
Qed.
End Format.
