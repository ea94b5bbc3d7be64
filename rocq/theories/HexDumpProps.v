(* Theorems about hex dumps. *)
From Coq Require Import ZArith Bool List Lia ZifyBool.
From Verif Require Import CInt IntModel IntSpec IntProofs IntProofs2 IntProofs3 IntTextModel IntTextSpec IntTextProps HexDumpModel HexDumpSpec HexDumpProofs ArrLib.
Import ListNotations.
Open Scope Z_scope.

Lemma uint_type_facts I : ity_ok I -> ity_ok (uint_type I) /\ 32 <= iwidth (uint_type I) /\ iwidth I <= iwidth (uint_type I) /\ isigned (uint_type I) = false.
Proof.
  intros H. destruct (strongly_promoted_facts I H) as (H1 & H2 & _ & _ & H3 & _). unfold uint_type, unsigned_type, ity_ok. cbn. lia.
Qed.

Lemma pow16 n : 0 <= n -> 16 ^ n = 2 ^ (4 * n).
Proof. intros. rewrite Z.pow_mul_r by lia. reflexivity. Qed.

Lemma pow2_lt_inv a b : 0 <= a -> 2 ^ a < 2 ^ b -> a < b.
Proof. intros. destruct (Z.ltb_spec a b); [assumption|]. exfalso. destruct (Z.ltb_spec b 0). { rewrite (Z.pow_neg_r 2 b) in * by lia. pose proof (Z.pow_pos_nonneg 2 a). lia. } pose proof (Z.pow_le_mono_r 2 b a). lia. Qed.

Lemma dump_params_ok I md : ity_ok I -> dump_params I md = Some (2 ^ iwidth I - 1, digits_of md (iwidth I)).
Proof.
  intros HI. destruct (uint_type_facts I HI) as (U1 & U2 & U3 & U4). pose proof (ity_ok_width I HI).
  unfold dump_params. rewrite int_mask_spec by (try assumption; unfold nvb; rewrite U4; lia). cbn [obind].
  unfold digits_of. destruct (md <=? 0); [|reflexivity].
  assert (Hr : representable (uint_type I) (2 ^ iwidth I - 1)).
  { unfold representable. rewrite U4. pose proof (Z.pow_le_mono_r 2 (iwidth I) (iwidth (uint_type I)) ltac:(lia) ltac:(lia)).
    pose proof (Z.pow_pos_nonneg 2 (iwidth I)). lia. }
  destruct (num_digits_exact (uint_type I) (2 ^ iwidth I - 1) 16 U1 Hr ltac:(lia)) as (n & -> & Hn). cbn [obind].
  f_equal. f_equal. pose proof (Z.pow_le_mono_r 2 1 (iwidth I) ltac:(lia) ltac:(lia)) as P1. change (2 ^ 1) with 2 in P1.
  destruct Hn as [(Hn & _)|(Hp & H1 & H2)]; [lia|]. rewrite Z.abs_eq in * by lia. rewrite !pow16 in * by lia.
  assert (4 * (n - 1) < iwidth I) by (apply pow2_lt_inv; lia).
  assert (~ (4 * n < iwidth I)). { intros F. pose proof (Z.pow_le_mono_r 2 (4 * n + 1) (iwidth I) ltac:(lia) ltac:(lia)) as Q.
    rewrite Z.pow_add_r in Q by lia. change (2 ^ 1) with 2 in Q. pose proof (Z.pow_pos_nonneg 2 (4 * n)). pose proof (Z.pow_le_mono_r 2 1 (4 * n) ltac:(lia) ltac:(lia)). lia. }
  apply Z.div_unique with (iwidth I + 3 - 4 * n); lia.
Qed.

Lemma positional_bound ds : Forall (fun d => 0 <= d < 16) ds -> 0 <= positional 16 ds < 16 ^ Z.of_nat (length ds).
Proof.
  induction 1 as [|d ds Hd F IH]; [cbn; lia|]. cbn [positional length]. rewrite Nat2Z.inj_succ, Z.pow_succ_r by lia.
  pose proof (Z.pow_pos_nonneg 16 (Z.of_nat (length ds))). nia.
Qed.

Lemma digit_char_range c d : digit_char c d -> 0 <= d.
Proof. unfold digit_char. lia. Qed.

Lemma digit_string_facts cs ds : digit_string 16 cs ds -> length cs = length ds /\ Forall (fun d => 0 <= d < 16) ds.
Proof.
  intros (F & G). induction F as [|c d cs ds Hc F IH]; [split; [reflexivity|constructor]|].
  inversion G; subst. destruct (IH H2) as (L & B). split; [cbn; congruence|]. constructor; [|assumption].
  apply digit_char_range in Hc. lia.
Qed.

(* number of characters of a hexadecimal numeral *)
Lemma hex_numeral_len {C} (widen : Z -> C) m v s w : hex_numeral widen m v s -> 0 <= v < 2 ^ w -> 1 <= w ->
  len s <= Z.max m ((w + 3) / 4) /\ m <= len s.
Proof.
  intros (cs & ds & -> & D & P & _ & L & Z0) Hv Hw. destruct (digit_string_facts cs ds D) as (El & B).
  replace (len (map widen cs)) with (len cs) by (unfold len; now rewrite map_length).
  pose proof (Z.div_pos (w + 3) 4 ltac:(lia) ltac:(lia)).
  split; [|assumption]. destruct ds as [|d ds]; [unfold len; rewrite El; cbn; lia|].
  destruct (Z.eq_dec d 0) as [->|Ne]; [specialize (Z0 ds eq_refl); lia|].
  inversion B as [|? ? Hd B2]; subst. pose proof (positional_bound ds B2) as Pb. cbn [positional] in Hv.
  rewrite pow16 in * by lia. pose proof (Z.pow_pos_nonneg 2 (4 * Z.of_nat (length ds))).
  assert (4 * Z.of_nat (length ds) < w) by (apply pow2_lt_inv; nia).
  unfold len. rewrite El. cbn [length]. rewrite Nat2Z.inj_succ. pose proof (Z.div_le_mono (4 * (Z.of_nat (length ds) + 1)) (w + 3) 4 ltac:(lia) ltac:(lia)) as Q.
  rewrite Z.mul_comm, Z.div_mul in Q by lia. lia.
Qed.

Lemma format_elem_ok {C} (widen : Z -> C) I m v : ity_ok I -> representable I v -> 0 <= m ->
  exists s, format_elem widen I (2 ^ iwidth I - 1) m v = Some s /\ hex_numeral widen m (v mod 2 ^ iwidth I) s.
Proof.
  intros HI Hv Hm. destruct (uint_type_facts I HI) as (U1 & U2 & U3 & U4). pose proof (ity_ok_width I HI) as W1.
  unfold format_elem. unfold cand. cbn [fst snd]. rewrite uac_same, promo_wide by assumption.
  unfold int_cast_a. rewrite (wrap_id (uint_type I) (wrap _ _)) by (try assumption; now apply wrap_range).
  assert (P0 : 0 < 2 ^ iwidth I) by (apply Z.pow_pos_nonneg; lia).
  pose proof (Z.pow_le_mono_r 2 (iwidth I) (iwidth (uint_type I)) ltac:(lia) ltac:(lia)) as P1.
  rewrite (wrap_id (uint_type I) (2 ^ iwidth I - 1)) by (try assumption; unfold in_range, imin, imax; rewrite U4; lia).
  replace (2 ^ iwidth I - 1) with (Z.ones (iwidth I)) by (rewrite Z.ones_equiv; lia).
  rewrite Z.land_ones by lia.
  assert (E : wrap (uint_type I) v mod 2 ^ iwidth I = v mod 2 ^ iwidth I).
  { destruct (wrap_cong (uint_type I) v U1) as (k & ->). destruct (pow2_divides (iwidth I) (iwidth (uint_type I)) ltac:(lia)) as (q & ->).
    rewrite Z.mul_assoc. apply Z.mod_add. lia. }
  rewrite E. pose proof (Z.mod_pos_bound v (2 ^ iwidth I) P0) as B.
  assert (Hrep : representable (uint_type I) (v mod 2 ^ iwidth I)) by (unfold representable; rewrite U4; lia).
  rewrite wrap_id by (try assumption; unfold in_range, imin, imax; rewrite U4; lia).
  destruct (format_exact C widen (uint_type I) false (v mod 2 ^ iwidth I) 16 m U1 Hrep ltac:(lia)) as (m' & cs & ds & M1 & _ & F & D & P & L & G & Z0).
  rewrite M1 in * by assumption. rewrite F. cbn [obind]. replace (v mod 2 ^ iwidth I <? 0) with false by lia. cbn [app].
  eexists. split; [reflexivity|]. exists cs, ds. rewrite Z.abs_eq in P by lia. repeat split; try assumption; apply D.
Qed.

(* C138: a hex dump is the joined hexadecimal numerals of the elements taken as bit patterns, all of them, or as many of them from the start
   as fit together with an ellipsis *)
Theorem hex_dump_exact : forall (C : Type) (widen : Z -> C) W I data sep md ms,
  ity_ok I -> Forall (representable I) data -> 16 <= W -> iwidth I <= 2 ^ W -> md < 2 ^ W -> len sep < 2 ^ W -> 0 <= ms < 2 ^ W ->
  exists strs out,
    Forall2 (fun v s => hex_numeral widen (digits_of md (iwidth I)) (v mod 2 ^ iwidth I) s) data strs /\
    do_hex_dump widen W I data sep md ms = Some out /\
    if ms =? 2 ^ W - 1 then out = join sep strs
    else shown sep (repeat (widen 46) 3) (Z.max ms 3) strs out.
Proof.
  intros C widen W I data sep md ms HI Hd HW HIW Hmd Hsep Hms. pose proof (ity_ok_width I HI) as W1.
  unfold do_hex_dump. rewrite dump_params_ok by assumption. cbn [obind].
  set (m := digits_of md (iwidth I)) in *. set (fmt := format_elem widen I (2 ^ iwidth I - 1) m).
  assert (Hq : 1 <= (iwidth I + 3) / 4 <= iwidth I).
  { split; [apply Z.div_le_lower_bound; lia|]. apply Z.div_le_upper_bound; lia. }
  assert (HW2 : 2 ^ 16 <= 2 ^ W) by (apply Z.pow_le_mono_r; lia). change (2 ^ 16) with 65536 in HW2.
  assert (Hq2 : (iwidth I + 3) / 4 < 2 ^ W) by (apply Z.div_lt_upper_bound; lia).
  assert (Hm : 0 <= m < 2 ^ W) by (subst m; unfold digits_of; destruct (Z.leb_spec md 0); lia).
  set (f := fun v => match fmt v with Some s => s | None => [] end).
  assert (K : forall v, representable I v -> fmt v = Some (f v) /\ hex_numeral widen m (v mod 2 ^ iwidth I) (f v)).
  { intros v Hv. destruct (format_elem_ok widen I m v HI Hv ltac:(lia)) as (s & E & N). unfold f. fold fmt in E. rewrite E. auto. }
  assert (G : good W f fmt data).
  { apply Forall_impl with (2 := Hd). intros v Hv. destruct (K v Hv) as (E & N). split; [assumption|].
    destruct (hex_numeral_len widen m _ _ (iwidth I) N); [|assumption|lia]. apply Z.mod_pos_bound. apply Z.pow_pos_nonneg; lia. }
  destruct (dump_elems_ok widen W f fmt sep HW Hsep data ms G Hms) as (out & E & S).
  exists (map f data), out. split; [|split; assumption].
  clear - K Hd. induction Hd; cbn; constructor; [now apply K|assumption].
Qed.

Example hex_dump_exact_ex1 : do_hex_dump (fun c => c) 64 (ITy 8 true) [10; -1; 127] [32] 0 (2 ^ 64 - 1) = Some [48; 65; 32; 70; 70; 32; 55; 70].
Proof. vm_compute. reflexivity. Qed.
Example hex_dump_exact_ex2 : do_hex_dump (fun c => c) 64 (ITy 8 true) [10; -1; 127] [32] 0 8 = Some [48; 65; 32; 70; 70; 32; 55; 70].
Proof. vm_compute. reflexivity. Qed.
Example hex_dump_exact_ex3 : do_hex_dump (fun c => c) 64 (ITy 8 true) [10; -1; 127] [32] 0 7 = Some [48; 65; 46; 46; 46].
Proof. vm_compute. reflexivity. Qed.
Example hex_dump_exact_ex4 : do_hex_dump (fun c => c) 64 (ITy 16 false) [10; 65535] [44; 32] 1 100 = Some [65; 44; 32; 70; 70; 70; 70].
Proof. vm_compute. reflexivity. Qed.

(* C139: the size of a dump is limited to the specified size when that leaves room for an ellipsis.  Missing: sizes less than 3 *)
Theorem hex_dump_size_partial : forall (C : Type) (widen : Z -> C) W I data sep md ms out,
  ity_ok I -> Forall (representable I) data -> 16 <= W -> iwidth I <= 2 ^ W -> md < 2 ^ W -> len sep < 2 ^ W -> 3 <= ms < 2 ^ W - 1 ->
  do_hex_dump widen W I data sep md ms = Some out -> len out <= ms.
Proof.
  intros C widen W I data sep md ms out HI Hd HW HIW Hmd Hsep Hms E.
  destruct (hex_dump_exact C widen W I data sep md ms HI Hd HW HIW Hmd Hsep ltac:(lia)) as (strs & out' & _ & E2 & S).
  rewrite E in E2. injection E2 as <-. replace (ms =? 2 ^ W - 1) with false in S by lia.
  destruct S as [(L & ->)|(_ & k & _ & -> & L & _)]; [lia|]. unfold len in *. rewrite app_length. lia.
Qed.

Example hex_dump_size_ex : exists out, do_hex_dump (fun c => c) 64 (ITy 32 true) [-2; 5] [32] 0 10 = Some out /\ len out = 3.
Proof. eexists. split; [vm_compute; reflexivity|reflexivity]. Qed.

(* with a specified size less than 3, the dump can be larger than specified *)
Theorem hex_dump_size_refuted : exists data ms out,
  Forall (representable (ITy 8 false)) data /\ 0 <= ms < 2 ^ 64 - 1 /\
  do_hex_dump (fun c => c) 64 (ITy 8 false) data [32] 0 ms = Some out /\ ms < len out.
Proof.
  exists [1; 2], 2, [46; 46; 46]. split; [repeat constructor; cbn; lia|]. split; [lia|]. split; [vm_compute; reflexivity|cbn; lia].
Qed.

Lemma digit_char_fun c d1 d2 : digit_char c d1 -> digit_char c d2 -> d1 = d2.
Proof. unfold digit_char. lia. Qed.

Lemma digit_string_fun cs : forall ds1 ds2, digit_string 16 cs ds1 -> digit_string 16 cs ds2 -> ds1 = ds2.
Proof.
  induction cs as [|c cs IH]; intros ds1 ds2 (F1 & G1) (F2 & G2); inversion F1; inversion F2; subst; [reflexivity|].
  inversion G1; inversion G2; subst. f_equal; [eapply digit_char_fun; eassumption|]. apply IH; split; assumption.
Qed.

Definition digit_code (c : Z) : Prop := exists d, digit_char c d.

Lemma map_widen_inj {C} (widen : Z -> C) : (forall a b, digit_code a -> digit_code b -> widen a = widen b -> a = b) ->
  forall cs1 cs2 ds1 ds2, digit_string 16 cs1 ds1 -> digit_string 16 cs2 ds2 -> map widen cs1 = map widen cs2 -> cs1 = cs2.
Proof.
  intros Inj. induction cs1 as [|c1 cs1 IH]; intros [|c2 cs2] ds1 ds2 (F1 & G1) (F2 & G2) E; try discriminate; [reflexivity|].
  inversion F1; inversion F2; subst. inversion G1; inversion G2; subst. cbn in E. injection E as E1 E2. f_equal.
  - apply Inj; try assumption; eexists; eassumption.
  - eapply IH; [split; eassumption|split; eassumption|assumption].
Qed.

Lemma join_inj {C} (sep : list C) (R : list C -> Prop) d : 0 < d -> (forall s, R s -> len s = d) ->
  forall s1 s2, Forall R s1 -> Forall R s2 -> join sep s1 = join sep s2 -> s1 = s2.
Proof.
  intros Hd HR. assert (app_inj : forall a b x y : list C, len a = len b -> a ++ x = b ++ y -> a = b /\ x = y).
  { induction a as [|u a IH]; intros [|v b] x y L E; unfold len in *; cbn in *; try lia; [auto|].
    injection E as -> E. destruct (IH b x y ltac:(lia) E). subst. auto. }
  assert (app_len : forall a b : list C, len (a ++ b) = len a + len b) by (intros; unfold len; rewrite app_length; lia).
  induction s1 as [|a s1 IH]; intros [|b s2] F1 F2 E; [reflexivity| | |].
  - exfalso. inversion F2; subst. apply HR in H1. rewrite join_tail in E. apply (f_equal len) in E. rewrite app_len in E.
    change (len (join sep [])) with 0 in E. unfold len in *. lia.
  - exfalso. inversion F1; subst. apply HR in H1. rewrite join_tail in E. apply (f_equal len) in E. rewrite app_len in E.
    change (len (join sep [])) with 0 in E. unfold len in *. lia.
  - inversion F1; inversion F2; subst. rewrite !join_tail in E. apply app_inj in E; [|rewrite !HR by assumption; reflexivity].
    destruct E as (<- & E). f_equal. apply IH; [assumption|assumption|].
    destruct s1 as [|c s1], s2 as [|e s2]; [reflexivity| | |].
    + exfalso. inversion H6; subst. apply HR in H3. apply (f_equal len) in E. rewrite tail_cons in E. change (len (tail sep [])) with 0 in E. unfold len in *. lia.
    + exfalso. inversion H2; subst. apply HR in H3. apply (f_equal len) in E. rewrite tail_cons in E. change (len (tail sep [])) with 0 in E. unfold len in *. lia.
    + unfold tail in E. cbn [map concat] in E. rewrite <- !app_assoc in E. apply app_inv_head in E. rewrite !join_tail. exact E.
Qed.

(* C140: a dump without limit and without specified number of digits tells the data *)
Theorem hex_dump_injective : forall (C : Type) (widen : Z -> C) W I data1 data2 sep md,
  (forall a b, digit_code a -> digit_code b -> widen a = widen b -> a = b) ->
  ity_ok I -> Forall (representable I) data1 -> Forall (representable I) data2 -> 16 <= W -> iwidth I <= 2 ^ W -> md <= 0 -> len sep < 2 ^ W ->
  do_hex_dump widen W I data1 sep md (2 ^ W - 1) = do_hex_dump widen W I data2 sep md (2 ^ W - 1) -> data1 = data2.
Proof.
  intros C widen W I data1 data2 sep md Inj HI Hd1 Hd2 HW HIW Hmd Hsep E. pose proof (ity_ok_width I HI) as W1.
  assert (PW : 0 < 2 ^ W) by (apply Z.pow_pos_nonneg; lia).
  destruct (hex_dump_exact C widen W I data1 sep md (2 ^ W - 1) HI Hd1 HW HIW ltac:(lia) Hsep ltac:(lia)) as (s1 & o1 & F1 & E1 & S1).
  destruct (hex_dump_exact C widen W I data2 sep md (2 ^ W - 1) HI Hd2 HW HIW ltac:(lia) Hsep ltac:(lia)) as (s2 & o2 & F2 & E2 & S2).
  rewrite Z.eqb_refl in S1, S2. rewrite E1, E2 in E. injection E as E. subst o1 o2.
  unfold digits_of in *. replace (md <=? 0) with true in * by lia. set (d := (iwidth I + 3) / 4) in *.
  assert (D1 : 1 <= d) by (apply Z.div_le_lower_bound; lia).
  assert (P0 : 0 < 2 ^ iwidth I) by (apply Z.pow_pos_nonneg; lia).
  assert (K : forall data strs, Forall2 (fun v s => hex_numeral widen d (v mod 2 ^ iwidth I) s) data strs -> Forall (fun s => len s = d) strs).
  { induction 1 as [|v s data strs N F IH]; constructor; [|assumption].
    destruct (hex_numeral_len widen d _ _ (iwidth I) N (Z.mod_pos_bound v _ P0) ltac:(lia)). fold d in H. lia. }
  assert (Es : s1 = s2).
  { apply (join_inj sep (fun s => len s = d) d ltac:(lia) ltac:(auto)); [now apply (K data1)|now apply (K data2)|assumption]. }
  subst s2. clear E1 E2 S2 K Hmd. revert data2 Hd2 F2. induction F1 as [|v1 s data1 strs N1 F1 IH]; intros data2 Hd2 F2; inversion F2; subst; [reflexivity|].
  inversion Hd1; inversion Hd2; subst. f_equal; [|now apply IH].
  destruct N1 as (cs1 & ds1 & -> & G1 & P1 & _), H2 as (cs2 & ds2 & Em & G2 & P2 & _).
  pose proof (map_widen_inj widen Inj _ _ _ _ G1 G2 Em). subst cs2. pose proof (digit_string_fun _ _ _ G1 G2). subst ds2.
  assert (Eq : v1 mod 2 ^ iwidth I = x mod 2 ^ iwidth I) by congruence.
  assert (H0 : exists k, v1 = x + k * 2 ^ iwidth I).
  { exists (v1 / 2 ^ iwidth I - x / 2 ^ iwidth I). pose proof (Z.div_mod v1 (2 ^ iwidth I)). pose proof (Z.div_mod x (2 ^ iwidth I)). nia. }
  destruct H0 as (k & Hk). pose proof (pow2_split (iwidth I) W1) as PS. unfold representable in *. destruct (isigned I); assert (k = 0) by nia; nia.
Qed.

Example hex_dump_injective_ex : do_hex_dump (fun c => c) 64 (ITy 12 true) [-1; 1] [] 0 (2 ^ 64 - 1) = Some [70; 70; 70; 48; 48; 49] /\
  do_hex_dump (fun c => c) 64 (ITy 12 true) [1; 1] [] 0 (2 ^ 64 - 1) = Some [48; 48; 49; 48; 48; 49].
Proof. split; vm_compute; reflexivity. Qed.

Print Assumptions hex_dump_exact.
Print Assumptions hex_dump_size_partial.
Print Assumptions hex_dump_size_refuted.
Print Assumptions hex_dump_injective.
