(* Theorems about the comparison and conversion between floating-point and integer values *)
From Coq Require Import ZArith Lia Bool.
From Verif Require Import CInt IntModel ArrLib FltModel FltSpec FltProofs.
Open Scope Z_scope.

(* the conversion from integer to floating-point gives one of the neighbours, see core/float_traits.hpp:112-119 *)
Definition faithful (p k fmax : Z) (of_int : Z -> flt) : Prop :=
  forall i, - fmax <= i * 2 ^ k <= fmax -> exists n, of_int i = Fin n /\ converted p k fmax i n.

(* the finite range of the floating-point type covers that of the integer type *)
Definition covers (k fmax : Z) (t : ity) : Prop :=
  - fmax <= imin t * 2 ^ k /\ imax t * 2 ^ k <= fmax.

Definition valid (p fmax : Z) (f : flt) : Prop :=
  match f with
  | Fin n => representable p fmax n
  | _ => True
  end.

(* single precision, and conversion by truncation *)
Definition single_max : Z := (2 ^ 24 - 1) * 2 ^ 253.
Definition toward_zero (p k : Z) (i : Z) : flt :=
  if 0 <=? i then Fin (round_down p (i * 2 ^ k)) else Fin (- round_down p (- (i * 2 ^ k))).
Definition t_int64 : ity := ITy 64 true.

Lemma single_format : good_format 24 149 single_max.
Proof. split; [lia | exists 253; split; [lia | reflexivity]]. Qed.

Lemma toward_zero_faithful : forall p k fmax, good_format p k fmax -> faithful p k fmax (toward_zero p k).
Proof.
  intros p k fmax F i Hi. unfold toward_zero. pose proof (pow_pos k) as Pk. pose proof F as ((Hp & Hk) & _).
  specialize (Pk ltac:(lia)).
  assert (A : forall x, 0 <= x <= fmax -> exists n, n = round_down p x /\ 0 <= n <= x /\ representable p fmax n /\
    forall q, representable p fmax q -> q <= x -> q <= n).
  { intros x Hx. destruct (round_down_right p k fmax F x ltac:(lia)) as ((m & e & E & He & Hm) & B & M).
    exists (round_down p x). pose proof (M 0 (zero_representable p k fmax F) ltac:(lia)).
    split; [reflexivity | split; [lia | split; [|exact M]]].
    split; [exists m, e; split; [assumption | lia] | lia]. }
  destruct (Z.leb_spec 0 i) as [C | C].
  - destruct (A (i * 2 ^ k) ltac:(nia)) as (n & <- & B & R & M).
    exists n. split; [reflexivity|]. split; [assumption | split].
    + intro H. pose proof (M _ H ltac:(lia)). lia.
    + intros q Hq. split; [|lia]. intro Hb. pose proof (M q Hq ltac:(lia)). lia.
  - destruct (A (- (i * 2 ^ k)) ltac:(nia)) as (n & <- & B & R & M).
    exists (- n). split; [reflexivity|]. split; [apply representable_opp; assumption | split].
    + intro H. apply representable_opp in H. pose proof (M _ H ltac:(lia)). lia.
    + intros q Hq. split; [lia|]. intro Hb. apply representable_opp in Hq. pose proof (M _ Hq ltac:(lia)). lia.
Qed.

Lemma range_zero : forall t, ity_ok t -> imin t <= 0 <= imax t.
Proof.
  intros [w [|]] H; unfold ity_ok, imin, imax in *; cbn in *.
  - pose proof (pow_pos (w - 1)). lia.
  - pose proof (pow_pos w). lia.
Qed.

Section Format.
Context (p k fmax : Z) (of_int : Z -> flt) (t : ity).
Context (Hfmt : good_format p k fmax) (Hconv : faithful p k fmax of_int).
Context (Hok : ity_ok t) (Hcov : covers k fmax t).

(* C200: the limits are what they are said to be, without undefined behaviour, and without a failed assertion.  Those for
   the range of an integer type are obtained from those for individual integers. *)
Theorem float_limits :
  (forall i, in_range t i -> 0 <= i ->
    exists n, max_float_not_above_nonneg_int p k fmax of_int t i = Some (Fin n) /\ greatest_not_above p k fmax n i) /\
  (forall i, in_range t i -> i <= 0 ->
    exists n, min_float_not_below_nonpos_int p k fmax of_int t i = Some (Fin n) /\ lowest_not_below p k fmax n i) /\
  (exists n, max_float_for_int p k fmax of_int t = Some (Fin n) /\ greatest_not_above p k fmax n (imax t)) /\
  (exists n, min_float_for_int p k fmax of_int t = Some (Fin n) /\ lowest_not_below p k fmax n (imin t)).
Proof.
  pose proof (range_zero t Hok) as Z0. destruct Hcov as (C1 & C2). pose proof Hfmt as ((Hp & Hk) & _).
  pose proof (pow_pos k ltac:(lia)) as Pk.
  assert (A : forall i, in_range t i -> 0 <= i ->
    exists n, max_float_not_above_nonneg_int p k fmax of_int t i = Some (Fin n) /\ greatest_not_above p k fmax n i).
  { intros i Hr Hi. unfold in_range in Hr. apply (max_not_above_right p k fmax Hfmt of_int Hconv); try lia.
    - nia.
    - apply in_range_promo; [assumption | exact Z0].
    - apply in_range_promo; [assumption | exact Hr]. }
  assert (B : forall i, in_range t i -> i <= 0 ->
    exists n, min_float_not_below_nonpos_int p k fmax of_int t i = Some (Fin n) /\ lowest_not_below p k fmax n i).
  { intros i Hr Hi. unfold in_range in Hr. apply (min_not_below_right p k fmax Hfmt of_int Hconv); try lia.
    - nia.
    - apply in_range_promo; [assumption | exact Z0].
    - apply in_range_promo; [assumption | exact Hr]. }
  split; [exact A | split; [exact B | split]].
  - apply A; unfold in_range; lia.
  - apply B; unfold in_range; lia.
Qed.

Lemma to_int_right : forall n, imin t * 2 ^ k <= n <= imax t * 2 ^ k ->
  float_to_int_a k t (Fin n) = Some (Z.quot n (2 ^ k)) /\ truncated k n (Z.quot n (2 ^ k)).
Proof.
  intros n Hn. pose proof Hfmt as ((Hp & Hk) & _). pose proof (pow_pos k ltac:(lia)) as Pk.
  pose proof (range_zero t Hok) as Z0. set (K := 2 ^ k) in *.
  assert (T : truncated k n (Z.quot n K)).
  { unfold truncated. fold K. split; intro C.
    - rewrite Z.quot_div_nonneg by lia.
      pose proof (Z.div_mod n K ltac:(lia)). pose proof (Z.mod_pos_bound n K Pk). nia.
    - replace n with (- (- n)) by lia. rewrite Z.quot_opp_l by lia. rewrite Z.quot_div_nonneg by lia.
      pose proof (Z.div_mod (- n) K ltac:(lia)). pose proof (Z.mod_pos_bound (- n) K Pk). nia. }
  split; [|exact T]. unfold float_to_int_a, to_int. fold K.
  assert (R : in_range t (Z.quot n K)).
  { destruct T as (T1 & T2). fold K in T1, T2. unfold in_range. destruct (Z.le_gt_cases 0 n) as [C | C].
    - specialize (T1 C). nia.
    - specialize (T2 ltac:(lia)). nia. }
  pose proof (in_range_promo t _ Hok R) as R'. unfold in_range in R'.
  assert (E : in_rangeb (promo t) (Z.quot n K) = true).
  { unfold in_rangeb. apply andb_true_intro. split; apply Z.leb_le; lia. }
  rewrite E. cbn [obind]. unfold int_cast_a. rewrite wrap_id by assumption. reflexivity.
Qed.

Lemma trunc_pos : forall n v i, 0 <= n -> truncated k n v -> (v < i <-> n < i * 2 ^ k).
Proof.
  intros n v i Hn (T & _). specialize (T Hn). pose proof Hfmt as ((Hp & Hk) & _).
  pose proof (pow_pos k ltac:(lia)) as Pk. split; intro H; nia.
Qed.

Lemma trunc_neg : forall n v i, n <= 0 -> truncated k n v -> (v <= i <-> n <= i * 2 ^ k).
Proof.
  intros n v i Hn (_ & T). specialize (T Hn). pose proof Hfmt as ((Hp & Hk) & _).
  pose proof (pow_pos k ltac:(lia)) as Pk. split; intro H; nia.
Qed.

(* C202: conversion with clamping, and conversion that can fail, do what they are said to do, without undefined behaviour.
   A finite value in range is rounded toward zero.  Other values are clamped, respectively rejected.  NaN is converted to
   zero, respectively rejected. *)
Theorem float_to_int_right : forall f, valid p fmax f ->
  exists c r, clamped_float_to_int p k fmax of_int t f = Some c /\ try_float_to_int p k fmax of_int t f = Some r /\
  match f with
  | NaN => c = 0 /\ r = None
  | Inf true => c = imin t /\ r = None
  | Inf false => c = imax t /\ r = None
  | Fin n =>
    (n < imin t * 2 ^ k -> c = imin t /\ r = None) /\
    (imax t * 2 ^ k < n -> c = imax t /\ r = None) /\
    (imin t * 2 ^ k <= n <= imax t * 2 ^ k -> truncated k n c /\ r = Some c)
  end.
Proof.
  intros f Hf. destruct float_limits as (_ & _ & (hi & Eh & Rh & Bh & Mh) & (lo & El & Rl & Bl & Ml)).
  unfold clamped_float_to_int, try_float_to_int. rewrite Eh, El. cbn [obind].
  destruct f as [| [|] | n]; cbn [flt_le flt_lt andb].
  - do 2 eexists. repeat split.
  - do 2 eexists. repeat split.
  - do 2 eexists. repeat split.
  - cbn in Hf. pose proof (range_zero t Hok). pose proof Hfmt as ((Hp & Hk) & _). pose proof (pow_pos k ltac:(lia)) as Pk.
    assert (L : lo <= n <-> imin t * 2 ^ k <= n) by (split; [lia | apply Ml; assumption]).
    assert (U : n <= hi <-> n <= imax t * 2 ^ k) by (split; [lia | apply Mh; assumption]).
    assert (S : imin t * 2 ^ k <= imax t * 2 ^ k) by nia.
    destruct (Z.leb_spec lo n) as [C1 | C1]; cbn [andb].
    + destruct (Z.leb_spec n hi) as [C2 | C2].
      * destruct (to_int_right n ltac:(tauto)) as (-> & T). cbn [obind].
        do 2 eexists. split; [reflexivity | split; [reflexivity|]].
        split; [lia | split; [lia |]]. intros _. split; [exact T | reflexivity].
      * do 2 eexists. split; [reflexivity | split; [reflexivity|]].
        split; [lia | split; [|lia]]. intros _. split; reflexivity.
    + destruct (Z.ltb_spec n lo) as [_ | C]; [|lia].
      do 2 eexists. split; [reflexivity | split; [reflexivity|]].
      split; [|split; lia]. intros _. split; reflexivity.
Qed.

(* C201: comparisons with an integer.  Comparison for equality is right.  The other ones are right when the next
   floating-point value toward zero is not on the other side of the integer.  In particular, they are right when the integer
   is representable.  Otherwise, if the floating-point value is in the range of the integer type, and of the relevant sign,
   the result is wrong.  NaN compares false, and infinities are right.  There is no undefined behaviour. *)
Theorem float_compare_int_partial : forall f i, valid p fmax f -> in_range t i ->
  exists eq lt gt le ge,
  float_equal_int p k fmax of_int t f i = Some eq /\ float_less_int p k fmax of_int t f i = Some lt /\
  float_greater_int p k fmax of_int t f i = Some gt /\ float_less_equal_int p k fmax of_int t f i = Some le /\
  float_greater_equal_int p k fmax of_int t f i = Some ge /\
  match f with
  | NaN => eq = false /\ lt = false /\ gt = false /\ le = false /\ ge = false
  | Inf negative => eq = false /\ lt = negative /\ gt = negb negative /\ le = negative /\ ge = negb negative
  | Fin n =>
    (eq = true <-> n = i * 2 ^ k) /\
    (0 <= n \/ ~ between p k fmax n i -> (lt = true <-> n < i * 2 ^ k) /\ (ge = true <-> i * 2 ^ k <= n)) /\
    (n <= 0 \/ ~ between p k fmax n i -> (gt = true <-> i * 2 ^ k < n) /\ (le = true <-> n <= i * 2 ^ k)) /\
    (representable p fmax (i * 2 ^ k) -> ~ between p k fmax n i) /\
    (imin t * 2 ^ k <= n < 0 -> between p k fmax n i -> n < i * 2 ^ k /\ lt = false /\ ge = true) /\
    (0 < n <= imax t * 2 ^ k -> between p k fmax n i -> i * 2 ^ k < n /\ gt = false /\ le = true)
  end.
Proof.
  intros f i Hf Hi. destruct float_limits as (_ & _ & (hi & Eh & Rh & Bh & Mh) & (lo & El & Rl & Bl & Ml)).
  pose proof (range_zero t Hok) as Z0. pose proof Hfmt as ((Hp & Hk) & _). pose proof (pow_pos k ltac:(lia)) as Pk.
  pose proof (zero_representable p k fmax Hfmt) as R0.
  assert (Hlo : lo <= 0) by (apply Ml; [assumption | nia]).
  assert (Hhi : 0 <= hi) by (apply Mh; [assumption | nia]).
  unfold in_range in Hi.
  unfold float_equal_int, float_less_int, float_greater_int, float_less_equal_int, float_greater_equal_int.
  rewrite Eh, El. cbn [obind].
  assert (Uns : isigned t = false -> 0 <= i).
  { intro E. unfold imin in Hi. rewrite E in Hi. lia. }
  destruct f as [| [|] | n]; cbn [flt_le flt_lt andb orb negb and_also or_else].
  - do 5 eexists. destruct (isigned t); repeat split.
  - do 5 eexists. destruct (isigned t); repeat split.
  - do 5 eexists. destruct (isigned t); repeat split.
  - cbn in Hf.
    assert (L : lo <= n <-> imin t * 2 ^ k <= n) by (split; [lia | apply Ml; assumption]).
    assert (U : n <= hi <-> n <= imax t * 2 ^ k) by (split; [lia | apply Mh; assumption]).
    assert (I1 : imin t * 2 ^ k <= i * 2 ^ k) by nia.
    assert (I2 : i * 2 ^ k <= imax t * 2 ^ k) by nia.
    assert (RB : representable p fmax (i * 2 ^ k) -> ~ between p k fmax n i).
    { intros R (n' & (R' & N1 & N2 & N3) & B).
      destruct (Z.lt_trichotomy n 0) as [C | [C | C]].
      - destruct (N2 C) as (? & M). pose proof (M _ R). lia.
      - lia.
      - destruct (N1 C) as (? & M). pose proof (M _ R). lia. }
    assert (EQ : exists eq,
      (if (lo <=? n) && (n <=? hi)
       then and_also (is_integral k (Fin n)) (let? v := float_to_int_a k t (Fin n) in Some (v =? i))
       else Some false) = Some eq /\ (eq = true <-> n = i * 2 ^ k)).
    { destruct (Z.leb_spec lo n) as [C1 | C1], (Z.leb_spec n hi) as [C2 | C2]; cbn [andb];
        try (exists false; split; [reflexivity | split; [discriminate | lia]]).
      destruct (to_int_right n ltac:(tauto)) as (-> & T). cbn [obind]. unfold and_also, is_integral.
      destruct (Z.eqb_spec (Z.quot n (2 ^ k) * 2 ^ k) n) as [E | E].
      - eexists. split; [reflexivity|]. rewrite Z.eqb_eq. split; [intros <-; lia|].
        intros ->. apply Z.quot_mul. lia.
      - exists false. split; [reflexivity | split; [discriminate|]].
        intros ->. exfalso. apply E. rewrite Z.quot_mul by lia. reflexivity. }
    destruct EQ as (eq & -> & EQ). exists eq.
    destruct (Z.lt_trichotomy n 0) as [C | [C | C]].
    + (* negative *)
      destruct (Z.ltb_spec n 0) as [_ | X]; [|lia]. destruct (Z.ltb_spec 0 n) as [X | _]; [lia|].
      destruct (Z.leb_spec n 0) as [_ | X]; [|lia]. destruct (Z.leb_spec 0 n) as [X | _]; [lia|].
      destruct (nextafter_right p k fmax Hfmt n Hf ltac:(lia)) as (n' & En & Nx).
      rewrite En. pose proof Nx as (R' & _ & N2 & _). destruct (N2 C) as (Bn & M).
      assert (BT : between p k fmax n i <-> n < i * 2 ^ k < n').
      { split.
        - intros (q & Nq & B). rewrite (next_unique p fmax n q n' Nq Nx) in B. lia.
        - intro B. exists n'. split; [assumption | left; assumption]. }
      destruct (isigned t) eqn:Sg.
      * destruct (Z.le_gt_cases lo n) as [C1 | C1].
        -- destruct (Z.ltb_spec n lo) as [X | _]; [lia|]. destruct (Z.leb_spec lo n) as [_ | X]; [|lia].
           cbn [or_else and_also].
           destruct (to_int_right n ltac:(nia)) as (-> & T). destruct (to_int_right n' ltac:(nia)) as (-> & T').
           cbn [obind].
           pose proof (trunc_neg n _ i ltac:(lia) T) as V. pose proof (trunc_neg n' _ i ltac:(lia) T') as V'.
           do 4 eexists. do 5 (split; [reflexivity|]). rewrite BT in *.
           split; [exact EQ | split; [|split; [|split; [exact RB | split]]]].
           ++ intros H. rewrite Z.leb_le, Z.ltb_lt. lia.
           ++ intros H. rewrite Z.leb_le, Z.ltb_lt. lia.
           ++ intros _ B. rewrite Z.leb_gt, Z.ltb_lt. lia.
           ++ lia.
        -- destruct (Z.ltb_spec n lo) as [_ | X]; [|lia]. destruct (Z.leb_spec lo n) as [X | _]; [lia|].
           cbn [or_else and_also].
           do 4 eexists. do 5 (split; [reflexivity|]).
           split; [exact EQ | split; [|split; [|split; [exact RB | split; lia]]]]; intros H; lia.
      * specialize (Uns eq_refl). assert (imin t = 0) by (unfold imin; rewrite Sg; reflexivity).
        do 4 eexists. do 5 (split; [reflexivity|]).
        split; [exact EQ | split; [|split; [|split; [exact RB | split; [nia | lia]]]]]; intros H'; nia.
    + (* zero *)
      subst n. cbn [Z.ltb Z.leb Z.compare].
      destruct (Z.leb_spec 0 hi) as [_ | X]; [|lia]. destruct (Z.ltb_spec hi 0) as [X | _]; [lia|].
      destruct (Z.leb_spec lo 0) as [_ | X]; [|lia]. destruct (Z.ltb_spec 0 lo) as [X | _]; [lia|].
      cbn [or_else and_also].
      destruct (to_int_right 0 ltac:(nia)) as (-> & T). cbn [obind].
      pose proof (trunc_neg 0 _ i ltac:(lia) T) as V. pose proof (trunc_pos 0 _ i ltac:(lia) T) as V'.
      destruct (isigned t) eqn:Sg.
      * do 4 eexists. do 5 (split; [reflexivity|]).
        split; [exact EQ | split; [|split; [|split; [exact RB | split; lia]]]];
          intros _; rewrite ?Z.leb_le, ?Z.ltb_lt; lia.
      * specialize (Uns eq_refl). do 4 eexists. do 5 (split; [reflexivity|]).
        split; [exact EQ | split; [|split; [|split; [exact RB | split; lia]]]];
          intros _; rewrite ?Z.leb_le, ?Z.ltb_lt; nia.
    + (* positive *)
      destruct (Z.ltb_spec n 0) as [X | _]; [lia|]. destruct (Z.ltb_spec 0 n) as [_ | X]; [|lia].
      destruct (Z.leb_spec n 0) as [X | _]; [lia|]. destruct (Z.leb_spec 0 n) as [_ | X]; [|lia].
      destruct (nextafter_right p k fmax Hfmt n Hf ltac:(lia)) as (n' & En & Nx).
      rewrite En. pose proof Nx as (R' & N1 & _). destruct (N1 C) as (Bn & M).
      assert (BT : between p k fmax n i <-> n' < i * 2 ^ k < n).
      { split.
        - intros (q & Nq & B). rewrite (next_unique p fmax n q n' Nq Nx) in B. lia.
        - intro B. exists n'. split; [assumption | right; assumption]. }
      destruct (Z.le_gt_cases n hi) as [C1 | C1].
      * destruct (Z.ltb_spec hi n) as [X | _]; [lia|]. destruct (Z.leb_spec n hi) as [_ | X]; [|lia].
        cbn [or_else and_also].
        destruct (to_int_right n ltac:(nia)) as (-> & T). destruct (to_int_right n' ltac:(nia)) as (-> & T').
        cbn [obind].
        pose proof (trunc_pos n _ i ltac:(lia) T) as V. pose proof (trunc_pos n' _ i ltac:(lia) T') as V'.
        do 4 eexists. do 5 (split; [reflexivity|]). rewrite BT in *.
        split; [exact EQ | split; [|split; [|split; [exact RB | split]]]].
        -- intros H. rewrite Z.leb_le, Z.ltb_lt. lia.
        -- intros H. rewrite Z.leb_le, Z.ltb_lt. lia.
        -- lia.
        -- intros _ B. rewrite Z.leb_gt, Z.ltb_lt. lia.
      * destruct (Z.ltb_spec hi n) as [_ | X]; [|lia]. destruct (Z.leb_spec n hi) as [X | _]; [lia|].
        cbn [or_else and_also].
        do 4 eexists. do 5 (split; [reflexivity|]).
        split; [exact EQ | split; [|split; [|split; [exact RB | split; lia]]]]; intros H; lia.
Qed.
End Format.

Definition single_of_int : Z -> flt := toward_zero 24 149.
Definition single (n : Z) : flt := Fin (n * 2 ^ 149).

Lemma single_valid : forall m e, - 2 ^ 24 < m < 2 ^ 24 -> 0 <= e <= 100 -> valid 24 single_max (single (m * 2 ^ e)).
Proof.
  intros m e Hm He. split.
  - exists m, (e + 149). split; [rewrite Z.pow_add_r by lia; ring | lia].
  - assert (A : 0 < 2 ^ e <= 2 ^ 100) by (split; [apply pow_pos; lia | apply Z.pow_le_mono_r; lia]).
    set (E := 2 ^ e) in *. unfold single_max.
    change (2 ^ 253) with (2 ^ 4 * 2 ^ 100 * 2 ^ 149). set (K := 2 ^ 149). assert (0 < K) by reflexivity.
    set (H100 := 2 ^ 100) in *. change (2 ^ 24) with 16777216 in *. change (2 ^ 4) with 16.
    assert (- (16777215 * (16 * H100)) <= m * E <= 16777215 * (16 * H100)) by nia. nia.
Qed.

Lemma single_covers : covers 149 single_max t_int /\ covers 149 single_max t_int64.
Proof. unfold covers. repeat split; vm_compute; discriminate. Qed.

Example float_limits_case :
  good_format 24 149 single_max /\ faithful 24 149 single_max single_of_int /\ ity_ok t_int64 /\
  covers 149 single_max t_int64 /\
  max_float_for_int 24 149 single_max single_of_int t_int64 = Some (single (2 ^ 63 - 2 ^ 39)) /\
  min_float_for_int 24 149 single_max single_of_int t_int64 = Some (single (- 2 ^ 63)) /\
  (* conversion that rounds up *)
  max_float_for_int 24 149 single_max (fun i => if i =? 2 ^ 63 - 1 then single (2 ^ 63) else single_of_int i) t_int64 =
    Some (single (2 ^ 63 - 2 ^ 39)).
Proof.
  split; [exact single_format | split; [apply toward_zero_faithful; exact single_format | split; [cbn; lia |]]].
  split; [apply single_covers | repeat split; vm_compute; reflexivity].
Qed.

Example float_to_int_case :
  valid 24 single_max (single (- 3)) /\
  clamped_float_to_int 24 149 single_max single_of_int t_int (Fin (- 7 * 2 ^ 148)) = Some (- 3) /\
  try_float_to_int 24 149 single_max single_of_int t_int (Fin (- 7 * 2 ^ 148)) = Some (Some (- 3)) /\
  clamped_float_to_int 24 149 single_max single_of_int t_int (single (2 ^ 31)) = Some (2 ^ 31 - 1) /\
  try_float_to_int 24 149 single_max single_of_int t_int (single (2 ^ 31)) = Some None /\
  clamped_float_to_int 24 149 single_max single_of_int t_int NaN = Some 0.
Proof.
  split; [exact (single_valid (- 3) 0 ltac:(lia) ltac:(lia)) | repeat split; vm_compute; reflexivity].
Qed.

Example float_compare_int_case :
  valid 24 single_max (single (2 ^ 31)) /\ in_range t_int (2 ^ 31 - 1) /\
  float_less_equal_int 24 149 single_max single_of_int t_int (single (2 ^ 31)) (2 ^ 31 - 1) = Some false /\
  float_greater_int 24 149 single_max single_of_int t_int (single (2 ^ 31)) (2 ^ 31 - 1) = Some true /\
  float_less_int 24 149 single_max single_of_int t_int (Fin (- 3 * 2 ^ 148)) (-1) = Some true /\
  float_less_int 24 149 single_max single_of_int t_int (Fin (- 3 * 2 ^ 148)) (-2) = Some false /\
  float_equal_int 24 149 single_max single_of_int t_int (single 5) 5 = Some true.
Proof.
  split; [exact (single_valid 1 31 ltac:(lia) ltac:(lia)) | split; [vm_compute; split; discriminate |]].
  repeat split; vm_compute; reflexivity.
Qed.

(* Comparison with an integer is not always right: with single precision, and 32-bit integers, 16777218 is claimed to be
   less than, or equal to 16777217, and not to be greater.  Also, -16777218 is claimed to be greater than, or equal to
   -16777217, and not to be less. *)
Theorem float_compare_int_refuted :
  exists p k fmax of_int t n i, good_format p k fmax /\ faithful p k fmax of_int /\ ity_ok t /\ covers k fmax t /\
    representable p fmax n /\ representable p fmax (- n) /\ in_range t i /\ in_range t (- i) /\
    i * 2 ^ k < n /\
    float_less_equal_int p k fmax of_int t (Fin n) i = Some true /\
    float_greater_int p k fmax of_int t (Fin n) i = Some false /\
    float_greater_equal_int p k fmax of_int t (Fin (- n)) (- i) = Some true /\
    float_less_int p k fmax of_int t (Fin (- n)) (- i) = Some false.
Proof.
  exists 24, 149, single_max, single_of_int, t_int, (16777218 * 2 ^ 149), 16777217.
  split; [exact single_format | split; [apply toward_zero_faithful; exact single_format | split; [cbn; lia |]]].
  split; [apply single_covers |].
  pose proof (single_valid 8388609 1 ltac:(lia) ltac:(lia)) as V. change (8388609 * 2 ^ 1) with 16777218 in V.
  split; [exact V | split; [apply representable_opp; exact V |]].
  do 2 (split; [vm_compute; split; discriminate |]).
  repeat split; vm_compute; reflexivity.
Qed.

Print Assumptions float_limits.
Print Assumptions float_to_int_right.
Print Assumptions float_compare_int_partial.
Print Assumptions float_compare_int_refuted.
