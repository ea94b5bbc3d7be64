(* C54-C57: bit media and the conversion of fractions of unity between integer
   representations. *)
From Coq Require Import ZArith Lia Bool List ZifyBool.
From Verif Require Import CInt IntModel IntSpec IntProofs.
From Verif Require Import ArrLib IntBitCopyModel BitMediumModel BitMediumSpec BitMediumProofs BitMediumProofs2.
Open Scope Z_scope.

(* ---- C54: packing ---- *)

(* Every N-bit number held in any type can be packed, the packed form is the one
   described in the documentation, and unpacking gives the number back in the default
   type and in every other type that has N value bits. *)
Theorem pack_unpack_exact : forall T N U v,
  ity_ok T -> ity_ok U -> is_bit_medium T N = true -> representable U v -> 0 <= v < 2 ^ N ->
  exists p, pack_int T N U v = Some p /\ representable T p /\ p = packed_form T N v /\
    (p - v) mod 2 ^ N = 0 /\ (0 <= p -> p = v) /\
    N <= nvb (unpacked_type T N) /\ unpack_int N T p = Some v /\
    forall U', ity_ok U' -> N <= nvb U' -> unpack_int_a N U' T p = Some v.
Proof.
  intros T N U v HT HU HB Hr Hv. apply representable_in_range in Hr.
  assert (HN : 0 <= N <= iwidth T) by (unfold is_bit_medium in HB; lia).
  exists (packed_form T N v). split; [now apply pack_int_spec|].
  split; [apply representable_in_range; now apply packed_range|]. split; [reflexivity|].
  assert (0 < 2 ^ N) by (apply Z.pow_pos_nonneg; lia).
  split.
  { unfold packed_form. destruct (_ && _ && _).
    - replace (v - 2 ^ N - v) with ((-1) * 2 ^ N) by ring. apply Z.mod_mul. lia.
    - now rewrite Z.sub_diag. }
  split. { unfold packed_form. destruct (_ && _ && _); lia. }
  split; [now apply unpacked_type_ok|]. split; [now apply unpack_int_spec|].
  intros U' H1 H2. apply unpack_int_a_spec; assumption.
Qed.

(* every type is a medium of its own width *)
Theorem is_bit_medium_width : forall T N, is_bit_medium T N = true <-> 0 <= N <= iwidth T.
Proof. intros T N. unfold is_bit_medium. cbn. lia. Qed.

Example pack_ex :
  let i8 := ITy 8 true in let u64 := ITy 64 false in
  is_bit_medium i8 8 = true /\ pack_int i8 8 u64 200 = Some (-56) /\ unpack_int 8 i8 (-56) = Some 200 /\
  pack_int i8 8 u64 100 = Some 100 /\ pack_int t_int 32 u64 4000000000 = Some (-294967296) /\
  unpack_int 32 t_int (-294967296) = Some 4000000000 /\ pack_int i8 7 u64 100 = Some 100.
Proof. vm_compute. auto 10. Qed.

(* unpacking never fails, whatever value the medium holds *)
Theorem unpack_int_a_total : forall T N U p, ity_ok T -> is_bit_medium T N = true ->
  exists r, unpack_int_a N U T p = Some r.
Proof.
  intros T N U p HT HB. assert (HN : 0 <= N <= iwidth T) by (unfold is_bit_medium in HB; lia).
  unfold unpack_int_a. destruct (N <=? nvb T); [eauto|].
  pose proof (IntBitCopyProofs2.promo_width T HT) as [W1 W2].
  rewrite IntProofs3.int_mask_spec.
  - cbn [obind]. eauto.
  - apply unsigned_ok. lia.
  - rewrite nvb_unsigned. lia.
Qed.

Example unpack_total_ex : unpack_int_a 5 (ITy 8 false) (ITy 8 true) (-100) = Some 156.
Proof. reflexivity. Qed.

(* The documentation of pack_int() promises an unspecified result for values out of
   range.  In fact the program terminates when int_cast() throws inside the noexcept
   function. *)
Theorem pack_int_total_refuted :
  ~ (forall T N U v, ity_ok T -> ity_ok U -> is_bit_medium T N = true -> representable U v ->
       exists p, pack_int T N U v = Some p).
Proof.
  intros H. destruct (H t_int 32 t_int (-1)) as [p Hp]; [cbn; lia|cbn; lia|reflexivity|cbn; lia|].
  vm_compute in Hp. discriminate.
Qed.

(* It holds when the medium has room for N value bits. *)
Theorem pack_int_total_partial : forall T N U v, N <= nvb T -> exists p, pack_int T N U v = Some p.
Proof. intros T N U v H. unfold pack_int. replace (N <=? nvb T) with true by lia. eauto. Qed.

Example pack_total_ex : pack_int (ITy 8 false) 4 t_int (-1) = Some 255.
Proof. reflexivity. Qed.

(* ---- C55: change_bit_width ---- *)

(* The result is the truncation of the exact fraction scaled by 2^m, it is in range,
   and there is no overflow on the way. *)
Theorem change_bit_width_exact_partial : forall T v n m,
  ity_ok T -> 1 <= n <= iwidth T -> 1 <= m <= nvb T -> representable T v -> 0 <= v < 2 ^ n ->
  exists r, change_bit_width T v n m = Some r /\ r = unit_scale n m v /\ 0 <= r < 2 ^ m.
Proof.
  intros T v n m HT Hn Hm Hr Hv. apply representable_in_range in Hr.
  exists (unit_scale n m v). split; [now apply change_bit_width_spec|]. split; [reflexivity|].
  apply unit_scale_range; lia.
Qed.

(* Equivalently, the result consists of the bits of v repeated from the top. *)
Theorem change_bit_width_bits : forall T v n m r i,
  ity_ok T -> 1 <= n <= iwidth T -> 1 <= m <= nvb T -> representable T v -> 0 <= v < 2 ^ n ->
  change_bit_width T v n m = Some r -> 0 <= i < m ->
  top_bit m r i = top_bit n v (i mod n).
Proof.
  intros T v n m r i HT Hn Hm Hr Hv E Hi. apply representable_in_range in Hr.
  rewrite change_bit_width_spec in E by assumption. injection E as <-.
  apply scale_bits; lia.
Qed.

(* Widening loses nothing. *)
Theorem change_bit_width_round_trip : forall T v n m,
  ity_ok T -> 1 <= n <= m -> m <= nvb T -> representable T v -> 0 <= v < 2 ^ n ->
  exists r, change_bit_width T v n m = Some r /\ change_bit_width T r m n = Some v.
Proof.
  intros T v n m HT Hn Hm Hr Hv. apply representable_in_range in Hr.
  assert (nvb T <= iwidth T) by (unfold nvb; destruct (isigned T); lia).
  exists (unit_scale n m v). split; [apply change_bit_width_spec; (assumption || lia)|].
  pose proof (unit_scale_range n m v ltac:(lia) ltac:(lia) Hv).
  assert (2 ^ m <= 2 ^ nvb T) by (apply Z.pow_le_mono_r; lia).
  rewrite change_bit_width_spec; try assumption; try lia.
  - now rewrite shrink_expand.
  - apply small_range; [assumption|lia].
Qed.

Example change_bit_width_ex :
  change_bit_width t_int 5 3 8 = Some 0xB6 /\ unit_scale 3 8 5 = 0xB6 /\
  change_bit_width t_int 0xB6 8 3 = Some 5 /\
  change_bit_width (ITy 16 false) 0x1234 16 16 = Some 0x1234 /\
  change_bit_width (ITy 64 false) 1 1 64 = Some (2 ^ 64 - 1) /\
  change_bit_width (ITy 8 false) 0x1F 5 8 = Some 255.
Proof. vm_compute. auto 10. Qed.

(* The assertions admit a target width equal to the width of a signed type.  Then the
   multiplication overflows. *)
Theorem change_bit_width_exact_refuted :
  ~ (forall T v n m, ity_ok T -> 1 <= n <= iwidth T -> 1 <= m <= iwidth T ->
       representable T v -> 0 <= v < 2 ^ n ->
       exists r, change_bit_width T v n m = Some r /\ 0 <= r < 2 ^ m).
Proof.
  intros H. destruct (H t_int 0xFFFF 16 32) as [r [Hr _]]; try (cbn; lia).
  vm_compute in Hr. discriminate.
Qed.

(* for a type narrower than int the result is negative instead *)
Example change_bit_width_signed_ex : change_bit_width (ITy 8 true) 15 4 8 = Some (-1).
Proof. reflexivity. Qed.

(* ---- C56: int_to_int_a ---- *)

(* exact scaling, rounded to nearest with ties down, never out of range *)
Theorem int_to_int_a_nearest : forall W I J v max_1 max_2,
  ity_ok W -> isigned W = false -> ity_ok I -> ity_ok J ->
  representable I max_1 -> representable J max_2 -> 0 < max_1 -> 0 <= max_2 -> 0 <= v <= max_1 ->
  max_1 < 2 ^ iwidth W -> max_1 * max_2 < 2 ^ iwidth W ->
  exists q, int_to_int_a W I J v max_1 max_2 = Some q /\ nearest_down v max_1 max_2 q /\
    0 <= q <= max_2 /\ (v = 0 -> q = 0) /\ (v = max_1 -> q = max_2).
Proof.
  intros W I J v m1 m2 HW SW HI HJ R1 R2 P1 P2 Hv B1 B2.
  apply representable_in_range in R1. apply representable_in_range in R2.
  destruct (int_to_int_a_spec W I J v m1 m2) as (q & E & Hq & Hr); try assumption.
  exists q. unfold nearest_down in Hq. split; [assumption|]. split; [assumption|]. split; [assumption|].
  split; intros ->; nia.
Qed.

(* a conversion to a representation that is at least as fine loses nothing *)
Theorem int_to_int_a_round_trip : forall W I J v max_1 max_2,
  ity_ok W -> isigned W = false -> ity_ok I -> ity_ok J ->
  representable I max_1 -> representable J max_2 -> 0 < max_1 <= max_2 -> 0 <= v <= max_1 ->
  max_2 < 2 ^ iwidth W -> max_1 * max_2 < 2 ^ iwidth W ->
  exists q, int_to_int_a W I J v max_1 max_2 = Some q /\ int_to_int_a W J I q max_2 max_1 = Some v.
Proof.
  intros W I J v m1 m2 HW SW HI HJ R1 R2 P1 Hv B1 B2.
  apply representable_in_range in R1. apply representable_in_range in R2.
  destruct (int_to_int_a_spec W I J v m1 m2) as (q & E & Hq & Hr); try assumption; try lia.
  destruct (int_to_int_a_spec W J I q m2 m1) as (u & E2 & Hu & Hur); try assumption; try lia.
  exists q. split; [assumption|]. rewrite E2. f_equal. unfold nearest_down in *.
  (* |q/m2 - v/m1| <= 1/(2 m2) and |u/m1 - q/m2| <= 1/(2 m1) *)
  destruct (Z.eq_dec m1 m2) as [Em|].
  - rewrite <- Em in *. assert (q = v) by nia. subst q. nia.
  - nia.
Qed.

(* The conversion is monotone. *)
Theorem int_to_int_a_monotone : forall W I J v w max_1 max_2 q r,
  ity_ok W -> isigned W = false -> ity_ok I -> ity_ok J ->
  representable I max_1 -> representable J max_2 -> 0 < max_1 -> 0 <= max_2 ->
  0 <= v <= w -> w <= max_1 -> max_1 < 2 ^ iwidth W -> max_1 * max_2 < 2 ^ iwidth W ->
  int_to_int_a W I J v max_1 max_2 = Some q -> int_to_int_a W I J w max_1 max_2 = Some r -> q <= r.
Proof.
  intros W I J v w m1 m2 q r HW SW HI HJ R1 R2 P1 P2 Hv Hw B1 B2 E1 E2.
  apply representable_in_range in R1. apply representable_in_range in R2.
  destruct (int_to_int_a_spec W I J v m1 m2) as (q' & F & Hq & _); try assumption; try lia.
  destruct (int_to_int_a_spec W I J w m1 m2) as (r' & G & Hr & _); try assumption; try lia.
  assert (q' = q) by congruence. assert (r' = r) by congruence. subst. unfold nearest_down in *. nia.
Qed.

Example int_to_int_a_ex :
  int_to_int_a (ITy 64 false) t_int (ITy 64 false) 3 7 65535 = Some 28086 /\
  int_to_int_a (ITy 64 false) (ITy 64 false) t_int 28086 65535 7 = Some 3 /\
  int_to_int_a (ITy 16 false) (ITy 8 false) (ITy 8 false) 200 255 255 = Some 200.
Proof. vm_compute. auto. Qed.

(* The function is documented as an infinitely precise version of a conversion through
   flt_to_int_a(), which returns round(x * max).  They differ on ties; the witness is
   the middle one of five grey levels in X11 colors. *)
Theorem int_to_int_a_rounds_refuted :
  ~ (forall W I J v max_1 max_2 q,
       ity_ok W -> isigned W = false -> ity_ok I -> ity_ok J ->
       representable I max_1 -> representable J max_2 -> 0 < max_1 -> 0 <= max_2 -> 0 <= v <= max_1 ->
       max_1 < 2 ^ iwidth W -> max_1 * max_2 < 2 ^ iwidth W ->
       int_to_int_a W I J v max_1 max_2 = Some q -> nearest_up v max_1 max_2 q).
Proof.
  intros H. specialize (H (ITy 64 false) t_int (ITy 64 false) 2 4 65535 32767).
  unfold nearest_up in H.
  enough (- (4) <= 2 * (2 * 65535 - 32767 * 4) < 4) by lia.
  apply H; try (cbn; lia); reflexivity.
Qed.

(* They agree when the origin representation has an odd maximum, such as 2^n - 1. *)
Theorem int_to_int_a_rounds_partial : forall W I J v max_1 max_2 q,
  ity_ok W -> isigned W = false -> ity_ok I -> ity_ok J ->
  representable I max_1 -> representable J max_2 -> 0 < max_1 -> 0 <= max_2 -> 0 <= v <= max_1 ->
  max_1 < 2 ^ iwidth W -> max_1 * max_2 < 2 ^ iwidth W -> Z.odd max_1 = true ->
  int_to_int_a W I J v max_1 max_2 = Some q -> nearest_up v max_1 max_2 q.
Proof.
  intros W I J v m1 m2 q HW SW HI HJ R1 R2 P1 P2 Hv B1 B2 Od E.
  apply representable_in_range in R1. apply representable_in_range in R2.
  destruct (int_to_int_a_spec W I J v m1 m2) as (q' & F & Hq & _); try assumption.
  assert (q' = q) by congruence. subst. unfold nearest_down, nearest_up in *.
  apply Z.odd_spec in Od. destruct Od as [k ->]. lia.
Qed.

Example int_to_int_a_odd_ex :
  int_to_int_a (ITy 64 false) t_int t_int 128 255 2 = Some 1 /\ nearest_up 128 255 2 1.
Proof. split; [reflexivity|unfold nearest_up; lia]. Qed.

(* ---- C57: image::int_to_int ---- *)

(* for all pairs of media, the packed form of v is mapped to the packed form of the
   scaled number *)
Theorem int_to_int_exact : forall M I N J v,
  ity_ok I -> ity_ok J -> 1 <= M <= iwidth J -> 1 <= N <= iwidth I -> 0 <= v < 2 ^ M ->
  exists r, int_to_int M I N J (packed_form J M v) = Some r /\ representable I r /\
    r = packed_form I N (unit_scale M N v).
Proof.
  intros M I N J v HI HJ HM HN Hv. exists (packed_form I N (unit_scale M N v)).
  split; [now apply int_to_int_spec|]. split; [|reflexivity].
  apply representable_in_range. apply packed_range; [assumption|lia|]. apply unit_scale_range; lia.
Qed.

Theorem int_to_int_round_trip : forall M I N J v,
  ity_ok I -> ity_ok J -> 1 <= M <= iwidth J -> M <= N <= iwidth I -> 0 <= v < 2 ^ M ->
  exists r, int_to_int M I N J (packed_form J M v) = Some r /\
    int_to_int N J M I r = Some (packed_form J M v).
Proof.
  intros M I N J v HI HJ HM HN Hv.
  exists (packed_form I N (unit_scale M N v)). split; [apply int_to_int_spec; (assumption || lia)|].
  rewrite int_to_int_spec; try assumption; try lia.
  - now rewrite shrink_expand.
  - apply unit_scale_range; lia.
Qed.

(* signed 8-bit medium with 8 bits to a signed 16-bit medium with 16 bits and back *)
Example int_to_int_ex :
  int_to_int 8 (ITy 16 true) 16 (ITy 8 true) (-56) = Some (-14136) /\
  int_to_int 16 (ITy 8 true) 8 (ITy 16 true) (-14136) = Some (-56) /\
  packed_form (ITy 8 true) 8 200 = -56 /\ packed_form (ITy 16 true) 16 0xC8C8 = -14136.
Proof. vm_compute. auto. Qed.

Print Assumptions pack_unpack_exact.
Print Assumptions is_bit_medium_width.
Print Assumptions unpack_int_a_total.
Print Assumptions pack_int_total_refuted.
Print Assumptions pack_int_total_partial.
Print Assumptions change_bit_width_exact_partial.
Print Assumptions change_bit_width_bits.
Print Assumptions change_bit_width_round_trip.
Print Assumptions change_bit_width_exact_refuted.
Print Assumptions int_to_int_a_nearest.
Print Assumptions int_to_int_a_round_trip.
Print Assumptions int_to_int_a_monotone.
Print Assumptions int_to_int_a_rounds_refuted.
Print Assumptions int_to_int_a_rounds_partial.
Print Assumptions int_to_int_exact.
Print Assumptions int_to_int_round_trip.
