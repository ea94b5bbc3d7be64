(* C36: FNV-1a *)
From Coq Require Import ZArith Lia List Bool ZifyBool.
From Verif Require Import CInt IntModel IntProofs FnvModel FnvSpec.
Import ListNotations.
Open Scope Z_scope.

Lemma lxor_mod x y k : 0 <= k -> (Z.lxor x y) mod 2 ^ k = Z.lxor (x mod 2 ^ k) (y mod 2 ^ k).
Proof.
  intros Hk. rewrite <- !Z.land_ones by assumption. apply Z.bits_inj'. intros n Hn.
  rewrite Z.land_spec, !Z.lxor_spec, !Z.land_spec.
  destruct (Z.testbit x n), (Z.testbit y n), (Z.testbit (Z.ones k) n); reflexivity.
Qed.

Definition stepspec (h o : Z) : Z := (Z.lxor h o * 16777619) mod 2 ^ 32.

Lemma mod_mod_pow x a b : 0 <= a <= b -> (x mod 2 ^ b) mod 2 ^ a = x mod 2 ^ a.
Proof.
  intros H. rewrite <- !Z.land_ones by lia. rewrite <- Z.land_assoc. f_equal.
  apply Z.bits_inj'. intros n Hn. rewrite Z.land_spec.
  destruct (Z_lt_le_dec n a).
  - rewrite !Z.ones_spec_low by lia. reflexivity.
  - rewrite (Z.ones_spec_high a n) by lia. apply andb_false_r.
Qed.

Lemma add_octet_spec W h o : 32 <= W -> 0 <= o < 256 ->
  fnv_add_octet W h o mod 2 ^ 32 = stepspec (h mod 2 ^ 32) o.
Proof.
  intros HW Ho. unfold fnv_add_octet, stepspec. rewrite mod_mod_pow by lia.
  rewrite <- (Z.mod_small o (2 ^ 32)) at 2 by lia. rewrite <- lxor_mod by lia.
  rewrite Z.mul_mod_idemp_l by lia. reflexivity.
Qed.

(* octets of a value of n remaining octets *)
Fixpoint octs (n : nat) (v : Z) : list Z :=
  match n with O => [] | S n => v mod 256 :: octs n (v / 256) end.

Lemma octs_seq n : forall v s, 
  octs n (v / 2 ^ (8 * Z.of_nat s)) = map (fun i => v / 2 ^ (8 * Z.of_nat i) mod 256) (seq s n).
Proof.
  induction n as [|n IH]; intros v s; [reflexivity|]. cbn [octs seq map]. f_equal.
  rewrite <- IH. f_equal. rewrite Z.div_div by (try lia; apply Z.pow_nonzero; lia).
  f_equal. change 256 with (2 ^ 8). rewrite <- Z.pow_add_r by lia. f_equal. lia.
Qed.

Lemma le_octets_octs w v : le_octets w v = octs (Z.to_nat ((w + 7) / 8)) (v mod 2 ^ w).
Proof.
  unfold le_octets. rewrite <- octs_seq. f_equal. cbn. now rewrite Z.div_1_r.
Qed.

Lemma int_loop_spec W : 32 <= W -> forall n fuel width offset h v, 
  (n < fuel)%nat -> 0 < width - offset - 8 * Z.of_nat n <= 8 ->
  0 <= v < 2 ^ (width - offset) ->
  exists h' v', fnv_int_loop fuel W width offset h v = Some (h', v') /\
    0 <= v' < 256 /\
    fold_left stepspec (octs (S n) v) (h mod 2 ^ 32) = stepspec (h' mod 2 ^ 32) v'.
Proof.
  intros HW. induction n as [|n IH]; intros fuel width offset h v Hf Hw Hv;
    (destruct fuel as [|fuel]; [lia|]); cbn [fnv_int_loop].
  - replace (width - offset >? 8) with false by lia.
    assert (2 ^ (width - offset) <= 2 ^ 8) by (apply Z.pow_le_mono_r; lia).
    exists h, v. split; [reflexivity|]. split; [lia|]. cbn [octs fold_left]. rewrite (Z.mod_small v) by lia. reflexivity.
  - replace (width - offset >? 8) with true by lia.
    change 255 with (Z.ones 8). rewrite Z.land_ones by lia. rewrite Z.shiftr_div_pow2 by lia.
    change (2 ^ 8) with 256.
    assert (Hs : 2 ^ (width - offset) = 256 * 2 ^ (width - (offset + 8))).
    { change 256 with (2 ^ 8). rewrite <- Z.pow_add_r by lia. f_equal. lia. }
    destruct (IH fuel width (offset + 8) (fnv_add_octet W h (v mod 256)) (v / 256))
      as (h' & v' & E & Hv' & HE).
    { lia. } { lia. }
    { split; [apply Z.div_pos; lia|]. apply Z.div_lt_upper_bound; lia. }
    exists h', v'. split; [assumption|]. split; [assumption|].
    rewrite <- HE. cbn [octs fold_left]. rewrite add_octet_spec; [reflexivity|assumption|].
    apply Z.mod_pos_bound. lia.
Qed.

(* an integer whose type is at least as wide as int, or a non-negative one *)
Definition int_item_good (it : fnv_item) : Prop :=
  match it with FByte _ => True | FInt T v => 32 <= iwidth T \/ 0 <= v end.

Lemma add_int_spec W T h v : 32 <= W -> ity_ok T -> in_range T v -> 32 <= iwidth T \/ 0 <= v ->
  exists h', fnv_add_int W T h v = Some h' /\
    h' mod 2 ^ 32 = fold_left stepspec (le_octets (iwidth T) v) (h mod 2 ^ 32).
Proof.
  intros HW HT Hv Hor. unfold fnv_add_int. rewrite le_octets_octs.
  pose proof (ity_ok_width _ HT) as Hw. set (w := iwidth T) in *.
  set (v2 := wrap (unsigned_type (promo T)) v).
  assert (Hv2 : v2 = v mod 2 ^ w).
  { unfold v2. destruct Hor as [H32|H0].
    - rewrite promo_wide by assumption. reflexivity.
    - rewrite wrap_id.
      + rewrite Z.mod_small; [reflexivity|]. rewrite in_range_nvb in Hv.
        assert (2 ^ nvb T <= 2 ^ w) by (apply Z.pow_le_mono_r; unfold nvb, w; destruct (isigned T); lia).
        destruct (isigned T); lia.
      + apply unsigned_type_ok. now apply promo_ok.
      + rewrite in_range_nvb. cbn [isigned unsigned_type]. rewrite nvb_unsigned_type.
        pose proof (promo_width_ge T). rewrite in_range_nvb in Hv.
        assert (2 ^ nvb T <= 2 ^ iwidth (promo T))
          by (apply Z.pow_le_mono_r; unfold nvb; destruct (isigned T); lia).
        destruct (isigned T); lia. }
  assert (Hr : 0 <= v2 < 2 ^ w) by (rewrite Hv2; apply Z.mod_pos_bound, Z.pow_pos_nonneg; lia).
  rewrite <- Hv2. 
  destruct (Z.gtb_spec w 8).
  - set (n := Z.to_nat ((w - 1) / 8)).
    assert (Hn : Z.of_nat n = (w - 1) / 8) by (unfold n; rewrite Z2Nat.id; [reflexivity|apply Z.div_pos; lia]).
    assert (HSn : Z.to_nat ((w + 7) / 8) = S n).
    { replace (w + 7) with (w - 1 + 1 * 8) by lia. rewrite Z.div_add by lia. unfold n.
      rewrite Z2Nat.inj_add by (try lia; apply Z.div_pos; lia). lia. }
    pose proof (Z.div_mod (w - 1) 8 ltac:(lia)). pose proof (Z.mod_pos_bound (w - 1) 8 ltac:(lia)).
    destruct (int_loop_spec W HW n (S (Z.to_nat w)) w 0 h v2) as (h' & v' & E & Hb & HE).
    { unfold n. apply Nat2Z.inj_lt. rewrite Nat2Z.inj_succ, !Z2Nat.id; lia. }
    { lia. } { now rewrite Z.sub_0_r. }
    rewrite E. cbn [obind fst snd]. eexists. split; [reflexivity|].
    assert (256 <= 2 ^ W) by (change 256 with (2 ^ 8); apply Z.pow_le_mono_r; lia).
    rewrite (Z.mod_small v') by lia.
    rewrite add_octet_spec by assumption. rewrite <- HE, HSn. reflexivity.
  - cbn [obind fst snd]. eexists. split; [reflexivity|].
    assert (2 ^ w <= 2 ^ 8) by (apply Z.pow_le_mono_r; lia).
    assert (256 <= 2 ^ W) by (change 256 with (2 ^ 8); apply Z.pow_le_mono_r; lia).
    change (2 ^ 8) with 256 in *.
    rewrite (Z.mod_small v2) by lia.
    rewrite add_octet_spec by lia.
    assert ((w + 7) / 8 = 1) as ->.
    { symmetry. apply (Z.div_unique _ _ _ (w - 1)); lia. }
    change (Z.to_nat 1) with 1%nat. cbn [octs fold_left]. now rewrite (Z.mod_small v2) by lia.
Qed.

Lemma fnv_run_spec W items : 32 <= W -> Forall item_ok items -> Forall int_item_good items ->
  forall h, exists h', fnv_run W h items = Some h' /\
    h' mod 2 ^ 32 = fold_left stepspec (flat_map item_octets items) (h mod 2 ^ 32).
Proof.
  intros HW H1 H2. induction items as [|it items IH]; intros h; cbn [fnv_run flat_map].
  - eexists; split; reflexivity.
  - inversion H1 as [|? ? Hok H1']; inversion H2 as [|? ? Hg H2']; subst.
    destruct it as [b|T v]; cbn [item_octets].
    + destruct (IH H1' H2' (fnv_add_byte W h b)) as (h' & E & HE). exists h'. split; [assumption|].
      rewrite HE. unfold fnv_add_byte. rewrite add_octet_spec by assumption. reflexivity.
    + destruct Hok as [HT Hv]. destruct (add_int_spec W T h v HW HT Hv Hg) as (h1 & E1 & HE1).
      rewrite E1. cbn [obind]. destruct (IH H1' H2' h1) as (h' & E & HE). exists h'.
      split; [assumption|]. rewrite fold_left_app. now rewrite <- HE1.
Qed.

(* Bytes and integers, except negative integers of types narrower than int. *)
Theorem fnv1a_partial : forall W items, 32 <= W ->
  Forall item_ok items ->
  Forall (fun it => match it with FByte _ => True | FInt T v => 32 <= iwidth T \/ 0 <= v end) items ->
  fnv_hash W items = Some (fnv1a_32 (flat_map item_octets items)).
Proof.
  intros W items HW H1 H2. unfold fnv_hash.
  destruct (fnv_run_spec W items HW H1 H2 2166136261) as (h & E & HE). rewrite E. cbn [obind].
  f_equal. replace (2 ^ 32 - 1) with (Z.ones 32) by reflexivity. rewrite Z.land_ones by lia.
  rewrite HE. unfold fnv1a_32, stepspec.
  now replace (2166136261 mod 2 ^ 32) with 2166136261 by reflexivity.
Qed.

(* Byte sequences: the complete statement. *)
Theorem fnv1a_bytes : forall W bytes, 32 <= W -> Forall (fun b => 0 <= b < 256) bytes ->
  fnv_hash W (map FByte bytes) = Some (fnv1a_32 bytes).
Proof.
  intros W bytes HW Hb. rewrite fnv1a_partial; [|assumption| |].
  - do 2 f_equal. induction Hb; cbn; [reflexivity|]. now f_equal.
  - induction Hb; cbn; constructor; auto.
  - induction Hb; cbn; constructor; auto.
Qed.

(* The full statement fails: the 16-bit value -1 is hashed with a final "octet"
   0xFFFFFF instead of 0xFF. *)
Theorem fnv1a_narrow_negative_refuted : exists W items, 32 <= W /\ Forall item_ok items /\
  fnv_hash W items <> Some (fnv1a_32 (flat_map item_octets items)).
Proof.
  exists 64, [FInt (ITy 16 true) (-1)]. split; [lia|]. split.
  - constructor; [|constructor]. cbv. intuition discriminate.
  - vm_compute. discriminate.
Qed.

Example fnv_ex : (* "foobar" -> 0xbf9cf968, the published test vector *)
  fnv_hash 64 (map FByte [102; 111; 111; 98; 97; 114]) = Some 3214735720 /\
  fnv_hash 64 [FInt (ITy 32 true) (-2)] = Some (fnv1a_32 [254; 255; 255; 255]) /\
  fnv_hash 64 [FInt (ITy 16 false) 513] = Some (fnv1a_32 [1; 2]).
Proof. vm_compute. auto. Qed.

Print Assumptions fnv1a_partial.
Print Assumptions fnv1a_bytes.
Print Assumptions fnv1a_narrow_negative_refuted.
