(* division *)
From Coq Require Import ZArith Lia Bool List ZifyBool.
From Verif Require Import CInt IntModel IntProofs IntProofs4 IntProps ArrLib MulPrecModel MulPrecSpec
  MulPrecProofs MulPrecProofs2 MulPrecProofs3.
Import ListNotations.
Open Scope Z_scope.

(* Knuth's analysis of the quotient digit estimate, as pure number theory.
   U / V is the wanted digit; E = leading two digits of U, u2 the third; v1, v2 the
   leading two digits of V; K the weight of the third digit. *)
Section Knuth.
  Variables (b v1 v2 v' u2 u' E K U V : Z).
  Hypothesis Hb : 2 <= b.
  Hypothesis Hv1 : b <= 2 * v1.
  Hypothesis Hv1' : v1 < b.
  Hypothesis Hv2 : 0 <= v2 < b.
  Hypothesis Hu2 : 0 <= u2 < b.
  Hypothesis HK : 1 <= K.
  Hypothesis Hv' : 0 <= v' < K.
  Hypothesis Hu' : 0 <= u' < K.
  Hypothesis HE : 0 <= E.
  Hypothesis EV : V = (v1 * b + v2) * K + v'.
  Hypothesis EU : U = (E * b + u2) * K + u'.
  Hypothesis HU : U < V * b.

  Lemma kV : b * K <= V /\ v1 * b * K <= V.
  Proof using All. rewrite EV. split; nia. Qed.

  Lemma kVu : V < (v1 * b + v2 + 1) * K.
  Proof using All. rewrite EV. nia. Qed.

  Lemma kUl : E * b * K <= U.
  Proof using All. rewrite EU. nia. Qed.

  Lemma kUu : U < (E * b + u2 + 1) * K /\ U < (E + 1) * b * K.
  Proof using All. rewrite EU. split; nia. Qed.

  Lemma k_lower q r : E = q * v1 + r -> 0 <= r < v1 -> 0 <= q -> U < (q + 1) * V.
  Proof using All.
    intros Hq Hr Hq0. destruct kV as [_ H1]. destruct kUu as [_ H2].
    assert (E + 1 <= (q + 1) * v1) by nia.
    assert ((E + 1) * (b * K) <= (q + 1) * v1 * (b * K)) by (apply Z.mul_le_mono_nonneg_r; nia).
    assert ((q + 1) * (v1 * b * K) <= (q + 1) * V) by (apply Z.mul_le_mono_nonneg_l; lia).
    nia.
  Qed.

  Lemma k_E : E <= v1 * b + v2.
  Proof using All.
    pose proof kUl. pose proof kVu.
    assert (E * b * K < (v1 * b + v2 + 1) * K * b) by nia.
    assert ((E - (v1 * b + v2 + 1)) * (b * K) < 0) by nia. nia.
  Qed.

  Lemma k_bound q r : E = q * v1 + r -> 0 <= r -> q <= b + 1.
  Proof using All. intros Hq Hr. pose proof k_E. nia. Qed.

  (* a failing test: the estimate is too large *)
  Lemma k_test_big q r : E = q * v1 + r -> b <= q -> U < q * V.
  Proof using All. intros. pose proof kV. assert (0 < V) by nia. nia. Qed.

  Lemma k_test q r : E = q * v1 + r -> 0 <= q -> b * r + u2 < q * v2 -> U < q * V.
  Proof using All.
    intros Hq Hq0 Ht. destruct kUu as [H _].
    assert (E * b + u2 + 1 <= q * (v1 * b + v2)) by nia.
    assert ((E * b + u2 + 1) * K <= q * (v1 * b + v2) * K) by (apply Z.mul_le_mono_nonneg_r; lia).
    rewrite EV. nia.
  Qed.

  (* a succeeding test: the estimate is at most one too large *)
  Lemma k_ok q r : E = q * v1 + r -> 0 <= q -> q <= b -> q * v2 <= b * r + u2 -> (q - 1) * V <= U.
  Proof using All.
    intros Hq Hq0 Hqb Ht. destruct kV as [H1 _].
    assert (q * (v1 * b + v2) <= E * b + u2) by nia.
    assert (q * (v1 * b + v2) * K <= (E * b + u2) * K) by (apply Z.mul_le_mono_nonneg_r; lia).
    assert (q * v' <= b * K) by nia.
    assert (q * V <= U + b * K) by (rewrite EV, EU; nia). nia.
  Qed.

  Lemma k_two q r : E = q * v1 + r -> 0 <= r -> 2 <= q -> (q - 2) * V <= U.
  Proof using All.
    intros Hq Hr Hq2. pose proof (k_bound q r Hq Hr). pose proof kUl. pose proof kVu. destruct kV.
    pose proof k_E.
    destruct (Z.eq_dec q (b + 1)) as [->|].
    - (* u1 >= v1: q = b + 1 *)
      assert (r <= v2 - v1) by nia.
      assert (V * b < (v1 * b + v2 + 1) * K * b) by nia.
      assert ((v1 * b + v2 + 1) * K * b - E * b * K = (v2 + 1 - v1 - r) * (b * K)) by (rewrite Hq; ring).
      assert ((v2 + 1 - v1 - r) * (b * K) <= v1 * (b * K)) by (apply Z.mul_le_mono_nonneg_r; nia).
      nia.
    - assert (q <= b) by lia.
      assert (q * v1 * (b * K) <= E * (b * K)) by (apply Z.mul_le_mono_nonneg_r; nia).
      assert (V <= (v1 + 1) * (b * K)) by nia.
      assert (q * V <= q * ((v1 + 1) * (b * K))) by (apply Z.mul_le_mono_nonneg_l; lia).
      assert (q * (b * K) <= 2 * v1 * (b * K)) by (apply Z.mul_le_mono_nonneg_r; nia).
      nia.
  Qed.
End Knuth.

Section S.
  Variables (pw h : Z) (N : nat).
  Hypothesis Hh : 1 <= h.
  Hypothesis Hpw : pw = 2 * h.
  Hypothesis HN : (1 <= N)%nat.

  Notation B := (2 ^ h).
  Notation M := (2 ^ pw).
  Notation W := (Z.of_nat N * pw).

  Lemma too_large_ok q r v2 u2 : 0 <= q -> 0 <= r < B -> 0 <= v2 < B -> 0 <= u2 < B ->
    too_large pw q r B v2 u2 = Some (if q <? B then negb (q * v2 <=? B * r + u2) else true).
  Proof.
    intros. pose proof (B_pos h Hh). pose proof (BB pw h Hh Hpw). unfold too_large.
    destruct (Z.ltb_spec q B); [|reflexivity].
    rewrite (ar_small pw h) by (assumption || nia). cbn [obind].
    rewrite (ar_small pw h) by (assumption || nia). cbn [obind].
    rewrite (ar_small pw h) by (assumption || nia). reflexivity.
  Qed.

  Lemma estimate_ok u0 u1 u2 v1 v2 u' v' K U V :
    0 <= u0 < B -> 0 <= u1 < B -> 0 <= u2 < B -> B <= 2 * v1 -> v1 < B -> 0 <= v2 < B ->
    1 <= K -> 0 <= u' < K -> 0 <= v' < K ->
    V = (v1 * B + v2) * K + v' -> U = ((u0 * B + u1) * B + u2) * K + u' -> U < V * B ->
    exists q, estimate pw u0 u1 u2 v1 v2 = Some q /\ 0 <= q < B /\ (q - 1) * V <= U < (q + 1) * V.
  Proof.
    intros H0 H1 H2 Hv1 Hv1' Hv2 HK Hu' Hv' EV EU HU.
    pose proof (B_pos h Hh) as HB. pose proof (BB pw h Hh Hpw) as HBB.
    unfold estimate. rewrite (sw_h pw h Hpw).
    rewrite (shl_small pw h) by (assumption || nia). cbn [obind].
    rewrite (lor_plus _ _ h) by (lia || (apply Z.mod_mul; lia)).
    rewrite pt_id by nia. set (E := u0 * B + u1) in *. assert (HE : 0 <= E < M) by (unfold E; nia).
    assert (HE0 : 0 <= E) by lia.
    unfold pdiv, pmod. destruct (Z.eqb_spec v1 0); [lia|].
    rewrite Z.quot_div_nonneg, Z.rem_mod_nonneg by lia.
    pose proof (Z.div_mod E v1 ltac:(lia)) as HD. pose proof (Z.mod_pos_bound E v1 ltac:(lia)) as HR.
    assert (HQ : 0 <= E / v1) by (apply Z.div_pos; lia).
    set (q0 := E / v1) in *. set (r0 := E mod v1) in *.
    assert (Eq0 : E = q0 * v1 + r0) by lia. assert (q0 <= E) by nia.
    rewrite (ar_small pw h) by (assumption || nia). cbn [obind].
    rewrite (pt_id pw q0) by lia.
    rewrite (ar_small pw h) by (assumption || nia). cbn [obind].
    rewrite (pt_id pw r0) by nia.
    rewrite (mask_h pw h Hpw). replace (B - 1 + 1) with B by lia.
    rewrite (ar_small pw h) by (assumption || nia). cbn [obind].
    rewrite (pt_id pw B) by nia.
    rewrite too_large_ok by lia. cbn [obind].
    pose proof (k_lower B v1 v2 v' u2 u' E K U V HB Hv1 Hv1' Hv2 H2 HK Hv' Hu' HE0 EV EU HU q0 r0 Eq0 HR HQ) as HL0.
    pose proof (k_bound B v1 v2 v' u2 u' E K U V HB Hv1 Hv1' Hv2 H2 HK Hv' Hu' HE0 EV EU HU q0 r0 Eq0 ltac:(lia)) as HB0.
    set (t0 := if q0 <? B then negb (q0 * v2 <=? B * r0 + u2) else true).
    destruct t0 eqn:Et0; cbn [negb].
    - assert (HL1 : U < q0 * V).
      { unfold t0 in Et0. destruct (Z.ltb_spec q0 B).
        - apply (k_test B v1 v2 v' u2 u' E K U V HB Hv1 Hv1' Hv2 H2 HK Hv' Hu' HE0 EV EU HU q0 r0); lia.
        - apply (k_test_big B v1 v2 v' u2 u' E K U V HB Hv1 Hv1' Hv2 H2 HK Hv' Hu' HE0 EV EU HU q0 r0); lia. }
      assert (HV : 0 < V) by (rewrite EV; nia). assert (HU0 : 0 <= U) by (rewrite EU; nia).
      assert (Hq1 : 1 <= q0) by nia.
      rewrite (pt_id pw (q0 - 1)) by lia.
      rewrite (ar_small pw h) by (assumption || nia). cbn [obind].
      rewrite (pt_id pw (r0 + v1)) by nia.
      set (q1 := q0 - 1) in *. set (r1 := r0 + v1) in *.
      assert (Eq1 : E = q1 * v1 + r1) by (unfold q1, r1; lia).
      pose proof (k_E B v1 v2 v' u2 u' E K U V HB Hv1 Hv1' Hv2 H2 HK Hv' Hu' HE0 EV EU HU) as HkE.
      destruct (Z.leb_spec B r1) as [Hr1|Hr1].
      + assert (q1 < B).
        { destruct (Z.eq_dec q0 (B + 1)) as [Ebig|]; [exfalso|lia].
          assert (r0 <= v2 - v1) by nia. unfold r1 in Hr1. lia. }
        exists q1. split; [reflexivity|]. split; [lia|]. split.
        * apply (k_ok B v1 v2 v' u2 u' E K U V HB Hv1 Hv1' Hv2 H2 HK Hv' Hu' HE0 EV EU HU q1 r1); try lia.
          assert (q1 * v2 <= B * B) by (apply Z.mul_le_mono_nonneg; lia).
          assert (B * B <= B * r1) by (apply Z.mul_le_mono_nonneg_l; lia). lia.
        * unfold q1. replace (q0 - 1 + 1) with q0 by lia. assumption.
      + rewrite too_large_ok by lia. cbn [obind].
        set (t1 := if q1 <? B then negb (q1 * v2 <=? B * r1 + u2) else true).
        destruct t1 eqn:Et1; cbn [negb].
        * assert (HL2 : U < q1 * V).
          { unfold t1 in Et1. destruct (Z.ltb_spec q1 B).
            - apply (k_test B v1 v2 v' u2 u' E K U V HB Hv1 Hv1' Hv2 H2 HK Hv' Hu' HE0 EV EU HU q1 r1); lia.
            - apply (k_test_big B v1 v2 v' u2 u' E K U V HB Hv1 Hv1' Hv2 H2 HK Hv' Hu' HE0 EV EU HU q1 r1); lia. }
          assert (1 <= q1) by nia.
          rewrite (pt_id pw (q1 - 1)) by lia.
          exists (q1 - 1). split; [reflexivity|]. split; [lia|].
          assert ((q0 - 2) * V <= U).
          { apply (k_two B v1 v2 v' u2 u' E K U V HB Hv1 Hv1' Hv2 H2 HK Hv' Hu' HE0 EV EU HU q0 r0); lia. }
          unfold q1 in *. split; nia.
        * unfold t1 in Et1. destruct (Z.ltb_spec q1 B); [|discriminate].
          exists q1. split; [reflexivity|]. split; [lia|]. split.
          -- apply (k_ok B v1 v2 v' u2 u' E K U V HB Hv1 Hv1' Hv2 H2 HK Hv' Hu' HE0 EV EU HU q1 r1); lia.
          -- unfold q1. replace (q0 - 1 + 1) with q0 by lia. assumption.
    - unfold t0 in Et0. destruct (Z.ltb_spec q0 B); [|discriminate].
      exists q0. split; [reflexivity|]. split; [lia|]. split; [|assumption].
      apply (k_ok B v1 v2 v' u2 u' E K U V HB Hv1 Hv1' Hv2 H2 HK Hv' Hu' HE0 EV EU HU q0 r0); lia.
  Qed.
End S.
