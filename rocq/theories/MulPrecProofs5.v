(* division, continued: the loops *)
From Coq Require Import ZArith Lia Bool List ZifyBool.
From Verif Require Import CInt IntModel IntProofs IntProofs4 IntProps ArrLib MulPrecModel MulPrecSpec
  MulPrecProofs MulPrecProofs2 MulPrecProofs3 MulPrecProofs4.
Import ListNotations.
Open Scope Z_scope.

Lemma list_end {A} (l : list A) n : length l = S n -> exists l' x, l = l' ++ [x] /\ length l' = n.
Proof.
  intros H. destruct (exists_last (l := l)) as [l' [x E]].
  { intros ->. discriminate. }
  exists l', x. split; [assumption|]. rewrite E, app_length in H. cbn in H. lia.
Qed.

Lemma small_mult P a k r : 0 <= a < P -> a + P * k = r -> 0 <= r < P -> k = 0.
Proof. intros. nia. Qed.

Section S.
  Variables (pw h : Z) (N : nat).
  Hypothesis Hh : 1 <= h.
  Hypothesis Hpw : pw = 2 * h.
  Hypothesis HN : (1 <= N)%nat.

  Notation B := (2 ^ h).
  Notation M := (2 ^ pw).
  Notation W := (Z.of_nat N * pw).

  Lemma powB_pos (n : nat) : 0 < B ^ Z.of_nat n.
  Proof. pose proof (B_pos h Hh). apply Z.pow_pos_nonneg; lia. Qed.

  Lemma powB_S (n : nat) : B ^ Z.of_nat (S n) = B * B ^ Z.of_nat n.
  Proof. rewrite Nat2Z.inj_succ, Z.pow_succ_r by lia. reflexivity. Qed.

  (* ---------------------------------------------------------------- *)
  (* short division *)

  Lemma short_div_ok b : 0 < b < B -> forall k al ah r, digits B al -> length al = k -> 0 <= r < b ->
    exists ql r', short_div_loop pw k (al ++ ah) b r = Some (ql ++ ah, r') /\ length ql = k /\
      digits B ql /\ 0 <= r' < b /\ r * B ^ Z.of_nat k + val B al = b * val B ql + r'.
  Proof.
    intros Hb. pose proof (B_pos h Hh) as HB. pose proof (BB pw h Hh Hpw) as HBB.
    induction k as [|k IH]; intros al ah r Hd Hl Hr.
    - destruct al; [|discriminate]. exists [], r. cbn [short_div_loop app length val Z.of_nat].
      rewrite Z.pow_0_r. split; [reflexivity|]. split; [reflexivity|]. split; [constructor|]. lia.
    - destruct (list_end al k Hl) as (al' & x & -> & Hl').
      apply digits_app in Hd as [Hd Hx]. apply digits_cons in Hx as [Hx _].
      cbn [short_div_loop]. rewrite (sw_h pw h Hpw).
      rewrite (shl_small pw h) by (assumption || nia). cbn [obind].
      rewrite <- app_assoc. cbn [app]. rewrite nth_error_mid by lia. cbn [obind].
      rewrite (lor_plus _ _ h) by (lia || (apply Z.mod_mul; lia)).
      rewrite pt_id by nia. set (d := r * B + x). assert (Hdr : 0 <= d < b * B) by (unfold d; nia).
      unfold pdiv, pmod. destruct (Z.eqb_spec b 0); [lia|].
      rewrite Z.quot_div_nonneg, Z.rem_mod_nonneg by lia.
      pose proof (Z.div_mod d b ltac:(lia)) as HD. pose proof (Z.mod_pos_bound d b ltac:(lia)) as HR.
      assert (HQ : 0 <= d / b < B).
      { split; [apply Z.div_pos; lia|]. apply Z.div_lt_upper_bound; lia. }
      rewrite (ar_small pw h) by (assumption || nia). cbn [obind].
      rewrite (pt_id pw (d / b)) by nia. rewrite set_nth_mid by lia. cbn [obind].
      rewrite (ar_small pw h) by (assumption || nia). cbn [obind].
      rewrite (pt_id pw (d mod b)) by nia.
      destruct (IH al' (d / b :: ah) (d mod b) Hd Hl' HR) as (ql & r' & E1 & L & D & R' & E2).
      rewrite E1. exists (ql ++ [d / b]), r'. split; [now rewrite <- app_assoc|].
      split; [rewrite app_length; cbn; lia|]. split.
      { apply digits_app. split; [assumption|]. apply digits_cons. split; [assumption|constructor]. }
      split; [assumption|]. rewrite !val_app, L, Hl'. cbn [val]. rewrite powB_S.
      set (P := B ^ Z.of_nat k) in *.
      replace (r * (B * P) + (val B al' + P * (x + B * 0))) with (d * P + val B al') by (unfold d; ring).
      rewrite HD at 1. nia.
  Qed.

  (* ---------------------------------------------------------------- *)
  (* normalization *)

  Lemma norm_loop_ok s : 0 <= s < h -> forall k al ar y lo hi,
    digits B al -> length al = k -> length lo = k -> 0 <= y < B -> y mod 2 ^ s = 0 ->
    exists out, norm_loop pw k s (al ++ ar) (lo ++ y :: hi) = Some (out ++ hi) /\
      length out = S k /\ digits B out /\ val B out = B ^ Z.of_nat k * y + 2 ^ s * val B al.
  Proof.
    intros Hs. pose proof (B_pos h Hh) as HB. pose proof (BB pw h Hh Hpw) as HBB.
    pose proof (pow_pos2 s ltac:(lia)) as P1. pose proof (pow_pos2 (h - s) ltac:(lia)) as P2.
    assert (EB : B = 2 ^ (h - s) * 2 ^ s) by (rewrite <- Z.pow_add_r by lia; f_equal; lia).
    induction k as [|k IH]; intros al ar y lo hi Hd Hl Hlo Hy Hys.
    - destruct al; [|discriminate]. destruct lo; [|discriminate]. exists [y].
      cbn [norm_loop app length val Z.of_nat]. rewrite Z.pow_0_r.
      split; [reflexivity|]. split; [reflexivity|]. split; [|lia].
      apply digits_cons. split; [assumption|constructor].
    - destruct (list_end al k Hl) as (al' & x & -> & Hl').
      destruct (list_end lo k Hlo) as (lo' & z & -> & Hlo').
      apply digits_app in Hd as [Hd Hx]. apply digits_cons in Hx as [Hx _].
      cbn [norm_loop]. rewrite nth_error_mid by (rewrite app_length; cbn; lia). cbn [obind].
      rewrite <- (app_assoc al'). cbn [app]. rewrite nth_error_mid by lia. cbn [obind].
      rewrite (sw_h pw h Hpw), shr_ok by lia. cbn [obind].
      pose proof (Z.div_mod x (2 ^ (h - s)) ltac:(lia)) as HD.
      pose proof (Z.mod_pos_bound x (2 ^ (h - s)) P2) as HR.
      assert (HQ : 0 <= x / 2 ^ (h - s) < 2 ^ s).
      { split; [apply Z.div_pos; lia|]. apply Z.div_lt_upper_bound; lia. }
      rewrite (lor_plus _ _ s) by (assumption || lia).
      assert (Hy' : 0 <= y + x / 2 ^ (h - s) < B).
      { pose proof (Z.div_mod y (2 ^ s) ltac:(lia)) as Hyd. rewrite Hys in Hyd.
        assert (y / 2 ^ s < 2 ^ (h - s)) by (apply Z.div_lt_upper_bound; lia). nia. }
      rewrite pt_id by nia. rewrite set_nth_mid by (rewrite app_length; cbn; lia). cbn [obind].
      assert (x * 2 ^ s < M) by nia.
      rewrite (shl_small pw h) by (assumption || lia). cbn [obind].
      rewrite (land_mask pw h) by assumption.
      assert (EX : (x * 2 ^ s) mod B = (x mod 2 ^ (h - s)) * 2 ^ s).
      { rewrite EB. apply Z.mul_mod_distr_r; lia. }
      rewrite EX. assert (HX : 0 <= x mod 2 ^ (h - s) * 2 ^ s < B) by nia.
      rewrite pt_id by nia.
      rewrite <- (app_assoc lo'). cbn [app]. rewrite set_nth_mid by lia. cbn [obind].
      destruct (IH al' (x :: ar) (x mod 2 ^ (h - s) * 2 ^ s) lo' (y + x / 2 ^ (h - s) :: hi) Hd Hl' Hlo' HX)
        as (out & E & L & D & V).
      { apply Z.mod_mul. lia. }
      rewrite E. exists (out ++ [y + x / 2 ^ (h - s)]). split; [now rewrite <- app_assoc|].
      split; [rewrite app_length; cbn; lia|]. split.
      { apply digits_app. split; [assumption|]. apply digits_cons. split; [assumption|constructor]. }
      rewrite !val_app, L, V, Hl', powB_S. cbn [val]. set (P := B ^ Z.of_nat k).
      assert (EE : x mod 2 ^ (h - s) * 2 ^ s + B * (x / 2 ^ (h - s)) = 2 ^ s * x).
      { rewrite EB. rewrite HD at 3. ring. }
      replace (P * (x mod 2 ^ (h - s) * 2 ^ s) + 2 ^ s * val B al' + B * P * (y + x / 2 ^ (h - s) + B * 0))
        with (B * P * y + 2 ^ s * val B al' + P * (x mod 2 ^ (h - s) * 2 ^ s + B * (x / 2 ^ (h - s)))) by ring.
      rewrite EE. ring.
  Qed.

  (* ---------------------------------------------------------------- *)
  (* one step of the main loop *)

  Lemma top_zero (l : list Z) n V : digits B l -> length l = S n -> val B l < V -> V <= B ^ Z.of_nat n ->
    exists l', l = l' ++ [0] /\ length l' = n /\ digits B l' /\ val B l' = val B l.
  Proof.
    intros Hd Hl Hv HV. pose proof (B_pos h Hh) as HB.
    destruct (list_end l n Hl) as (l' & x & -> & Hl').
    apply digits_app in Hd as [Hd Hx]. apply digits_cons in Hx as [Hx _].
    pose proof (val_range B l' ltac:(lia) Hd). rewrite val_app, Hl' in *. cbn [val] in *.
    pose proof (powB_pos n). assert (x = 0) by nia. subst x.
    exists l'. repeat split; try assumption; lia.
  Qed.

  Lemma long_step_ok n m lo mid hi vd vz :
    (n >= 2)%nat -> (n + m = 2 * N)%nat ->
    length mid = S n -> digits B mid -> length vd = n -> digits B vd ->
    B <= 2 * nth (n - 1) vd 0 -> val B mid < val B vd * B ->
    exists md x q, long_div_step pw N (length lo) n (lo ++ mid ++ hi) (vd ++ vz) =
        Some (lo ++ md ++ x :: hi, q) /\
      length md = n /\ digits B md /\ 0 <= q < B /\
      val B mid = q * val B vd + val B md /\ val B md < val B vd.
  Proof.
    intros Hn Hm Lm Dm Lv Dv Htop HU. pose proof (B_pos h Hh) as HB. pose proof (BB pw h Hh Hpw) as HBB.
    destruct n as [|[|n]]; [lia|lia|].
    destruct (list_end mid _ Lm) as (mid1 & u0 & -> & L1).
    destruct (list_end mid1 _ L1) as (mid2 & u1 & -> & L2).
    destruct (list_end mid2 _ L2) as (mid3 & u2 & -> & L3).
    destruct (list_end vd _ Lv) as (vd1 & v1 & -> & K1).
    destruct (list_end vd1 _ K1) as (vd2 & v2 & -> & K2).
    replace (S (S n) - 1)%nat with (S n) in Htop by lia.
    rewrite app_nth2, K1, Nat.sub_diag in Htop by lia. cbn [nth] in Htop.
    pose proof Dm as Dm'. pose proof Dv as Dv'.
    apply digits_app in Dm as [Dm Hu0]. apply digits_cons in Hu0 as [Hu0 _].
    apply digits_app in Dm as [Dm Hu1]. apply digits_cons in Hu1 as [Hu1 _].
    apply digits_app in Dm as [Dm Hu2]. apply digits_cons in Hu2 as [Hu2 _].
    apply digits_app in Dv as [Dv Hv1]. apply digits_cons in Hv1 as [Hv1 _].
    apply digits_app in Dv as [Dv Hv2]. apply digits_cons in Hv2 as [Hv2 _].
    assert (EU : val B (((mid3 ++ [u2]) ++ [u1]) ++ [u0]) =
      ((u0 * B + u1) * B + u2) * B ^ Z.of_nat n + val B mid3).
    { rewrite !val_app, !app_length, L3. cbn [length val].
      replace (n + 1 + 1)%nat with (S (S n)) by lia. replace (n + 1)%nat with (S n) by lia.
      rewrite !powB_S. ring. }
    assert (EV : val B ((vd2 ++ [v2]) ++ [v1]) = (v1 * B + v2) * B ^ Z.of_nat n + val B vd2).
    { rewrite !val_app, !app_length, K2. cbn [length val].
      replace (n + 1)%nat with (S n) by lia. rewrite !powB_S. ring. }
    pose proof (val_range B mid3 ltac:(lia) Dm) as RU. rewrite L3 in RU.
    pose proof (val_range B vd2 ltac:(lia) Dv) as RV. rewrite K2 in RV.
    pose proof (powB_pos n) as HP.
    destruct (estimate_ok pw h N Hh Hpw HN u0 u1 u2 v1 v2 (val B mid3) (val B vd2) (B ^ Z.of_nat n)
      (val B (((mid3 ++ [u2]) ++ [u1]) ++ [u0])) (val B ((vd2 ++ [v2]) ++ [v1])))
      as (q & Eq & Hq & HqL & HqU); try assumption; try lia.
    set (mid := ((mid3 ++ [u2]) ++ [u1]) ++ [u0]) in *.
    set (vd := (vd2 ++ [v2]) ++ [v1]) in *.
    unfold long_div_step. replace (length lo + S (S n) - 1)%nat with (length lo + S n)%nat by lia.
    replace (length lo + S (S n) - 2)%nat with (length lo + n)%nat by lia.
    replace (S (S n) - 1)%nat with (S n) by lia. replace (S (S n) - 2)%nat with n by lia.
    assert (G0 : nth_error (lo ++ mid ++ hi) (length lo + S (S n)) = Some u0).
    { unfold mid. rewrite <- !app_assoc. cbn [app].
      replace (lo ++ mid3 ++ u2 :: u1 :: u0 :: hi) with ((lo ++ mid3 ++ [u2; u1]) ++ u0 :: hi)
        by (rewrite <- !app_assoc; reflexivity).
      apply nth_error_mid. rewrite !app_length. cbn. lia. }
    assert (G1 : nth_error (lo ++ mid ++ hi) (length lo + S n) = Some u1).
    { unfold mid. rewrite <- !app_assoc. cbn [app].
      replace (lo ++ mid3 ++ u2 :: u1 :: u0 :: hi) with ((lo ++ mid3 ++ [u2]) ++ u1 :: u0 :: hi)
        by (rewrite <- !app_assoc; reflexivity).
      apply nth_error_mid. rewrite !app_length. cbn. lia. }
    assert (G2 : nth_error (lo ++ mid ++ hi) (length lo + n) = Some u2).
    { unfold mid. rewrite <- !app_assoc. cbn [app].
      replace (lo ++ mid3 ++ u2 :: u1 :: u0 :: hi) with ((lo ++ mid3) ++ u2 :: u1 :: u0 :: hi)
        by (rewrite <- !app_assoc; reflexivity).
      apply nth_error_mid. rewrite !app_length. lia. }
    assert (G3 : nth_error (vd ++ vz) (S n) = Some v1).
    { unfold vd. rewrite <- !app_assoc. cbn [app].
      replace (vd2 ++ v2 :: v1 :: vz) with ((vd2 ++ [v2]) ++ v1 :: vz) by (rewrite <- !app_assoc; reflexivity).
      apply nth_error_mid. rewrite !app_length. cbn. lia. }
    assert (G4 : nth_error (vd ++ vz) n = Some v2).
    { unfold vd. rewrite <- !app_assoc. cbn [app]. apply nth_error_mid. lia. }
    rewrite G0, G1, G2, G3, G4. cbn [obind]. rewrite Eq. cbn [obind].
    rewrite (ns_2N pw h N) by assumption.
    (* multiply *)
    assert (Lvd : length vd = S (S n)) by assumption.
    assert (Lmid : length mid = S (S (S n))) by assumption.
    destruct (zip_mul pw h Hh Hpw q (repeat 0 (S (S n))) Hq vd 0) as (w & cw & Ew & Lw & Dw & Hcw & Vw).
    { apply digits_zeros. lia. } { assumption. } { rewrite repeat_length. lia. } { lia. }
    rewrite repeat_length in Lw, Vw. rewrite val_zeros in Vw.
    pose proof (carry_loop_spec (mul_step pw q) _ _ _ _ _ (S (S n)) 0 0 [] (repeat 0 (m + 1)) [] vz Ew
      ltac:(apply repeat_length) Lvd eq_refl eq_refl) as HC1.
    cbn [app] in HC1. rewrite <- repeat_app in HC1.
    replace (2 * N + 1)%nat with (S (S n) + (m + 1))%nat by lia. rewrite HC1. cbn [obind].
    replace (m + 1)%nat with (S m) by lia. cbn [repeat].
    (* w[n] = carry *)
    rewrite set_nth_mid by lia. cbn [obind].
    (* subtract *)
    assert (Dwc : digits B (w ++ [cw])).
    { apply digits_app. split; [assumption|]. apply digits_cons. split; [assumption|constructor]. }
    assert (Lwc : length (w ++ [cw]) = S (S (S n))) by (rewrite app_length; cbn; lia).
    destruct (zip_sub pw h Hh Hpw mid (w ++ [cw]) 0 Dm' Dwc ltac:(lia) ltac:(lia))
      as (rs & cs & Es & Ls & Ds & Hcs & Vs).
    rewrite Lmid in Vs, Ls.
    assert (Vwc : val B (w ++ [cw]) = q * val B vd).
    { rewrite val_app, Lw. cbn [val]. lia. }
    rewrite Vwc in Vs.
    replace (w ++ cw :: repeat 0 m) with ([] ++ (w ++ [cw]) ++ repeat 0 m)
      by (cbn [app]; rewrite <- app_assoc; reflexivity).
    replace (S (S n) + 1)%nat with (S (S (S n))) by lia.
    rewrite (carry_loop_spec _ _ _ _ _ _ (S (S (S n))) 0 (length lo) lo hi [] (repeat 0 m) Es Lmid Lwc
      ltac:(lia) eq_refl).
    cbn [obind].
    pose proof (val_range B vd ltac:(lia) Dv') as RVd. rewrite Lvd in RVd.
    assert (HV0 : 0 < val B vd).
    { assert (0 < v1 * B) by (apply Z.mul_pos_pos; lia).
      assert (0 < (v1 * B + v2) * B ^ Z.of_nat n) by (apply Z.mul_pos_pos; lia). lia. }
    assert (HBM : 2 * B <= M) by (rewrite HBB; apply Z.mul_le_mono_nonneg_r; lia).
    pose proof (val_range B mid ltac:(lia) Dm') as RM.
    pose proof (powB_S (S (S n))) as EPS.
    pose proof (powB_pos (S (S n))) as HPS.
    destruct (Z.eqb_spec cs 0) as [Hc0|Hc1].
    - subst cs.
      destruct (top_zero rs (S (S n)) (val B vd)) as (md & -> & Lmd & Dmd & Vmd); try assumption; try lia.
      exists md, 0, q. rewrite <- app_assoc. cbn [app]. split; [reflexivity|].
      split; [assumption|]. split; [assumption|]. split; [assumption|]. rewrite Vmd. lia.
    - assert (cs = 1) by lia. subst cs.
      destruct (list_end rs _ Ls) as (rl & top & -> & Lrl).
      pose proof Ds as Ds'. apply digits_app in Ds as [Drl Htp]. apply digits_cons in Htp as [Htp _].
      destruct (zip_add pw h Hh Hpw rl vd 0 Drl Dv' ltac:(lia) ltac:(lia))
        as (md & ca & Ea & La & Da & Hca & Va).
      rewrite Lrl in Va, La.
      replace (lo ++ (rl ++ [top]) ++ hi) with (lo ++ rl ++ (top :: hi)) by (rewrite <- !app_assoc; reflexivity).
      pose proof (carry_loop_spec _ _ _ _ _ _ (S (S n)) 0 (length lo) lo (top :: hi) [] vz Ea Lrl Lvd
        ltac:(lia) eq_refl) as HC2. cbn [app] in HC2. rewrite HC2. cbn [obind].
      replace (lo ++ md ++ top :: hi) with ((lo ++ md) ++ top :: hi) by (rewrite <- !app_assoc; reflexivity).
      rewrite nth_error_mid by (rewrite app_length; lia). cbn [obind].
      rewrite (ar_small pw h) by (assumption || lia). cbn [obind].
      rewrite set_nth_mid by (rewrite app_length; lia). cbn [obind].
      rewrite val_app, Lrl in Vs. cbn [val] in Vs.
      pose proof (val_range B md ltac:(lia) Da) as Rmd. rewrite La in Rmd.
      set (P := B ^ Z.of_nat (S (S n))) in *. set (V := val B vd) in *. set (U := val B mid) in *.
      assert (HqV : U < q * V).
      { pose proof (val_range B (rl ++ [top]) ltac:(lia) Ds') as R. rewrite val_app, Lrl, app_length, Lrl in R.
        cbn [val length] in R. replace (S (S n) + 1)%nat with (S (S (S n))) in R by lia. lia. }
      assert (Hq1 : q <> 0) by (intros ->; lia).
      rewrite (pt_id pw (q - 1)) by lia.
      exists md, (pt pw (top + ca)), (q - 1). split; [rewrite <- app_assoc; reflexivity|].
      split; [assumption|]. split; [assumption|]. split; [lia|].
      (* rl + V = md + P ca and rl + P top = U - q V + P B: so md = U - (q - 1) V modulo P *)
      assert (ER : val B md + P * (ca + top - B) = U - (q - 1) * V) by lia.
      assert (HR : 0 <= U - (q - 1) * V < V) by lia.
      assert (E0 : ca + top - B = 0) by (apply (small_mult P (val B md) _ _ Rmd ER); lia).
      rewrite E0 in ER. lia.
  Qed.

  (* ---------------------------------------------------------------- *)
  (* the main loop *)

  Lemma long_loop_ok n m vd vz : (n >= 2)%nat -> (n + m = 2 * N)%nat ->
    length vd = n -> digits B vd -> B <= 2 * nth (n - 1) vd 0 ->
    forall j lo mid hi q0 qhi, length lo = j -> digits B lo -> length mid = S n -> digits B mid ->
    val B mid < val B vd * B -> length q0 = S j ->
    exists r hi' ql, long_div_loop pw N j n (lo ++ mid ++ hi) (vd ++ vz) (q0 ++ qhi) =
        Some (r ++ hi', ql ++ qhi) /\
      length r = n /\ digits B r /\ length ql = S j /\ digits B ql /\
      val B lo + B ^ Z.of_nat j * val B mid = val B ql * val B vd + val B r /\ val B r < val B vd.
  Proof.
    intros Hn Hm Lv Dv Htop. pose proof (B_pos h Hh) as HB.
    induction j as [|j IH]; intros lo mid hi q0 qhi Ll Dl Lm Dm HU Lq.
    - destruct lo; [|discriminate].
      destruct (long_step_ok n m [] mid hi vd vz) as (md & x & q & E & L & D & Hq & EV & HV); try assumption.
      cbn [long_div_loop app]. cbn [length app] in E. rewrite E. cbn [obind].
      destruct q0 as [|a [|]]; try discriminate. cbn [app set_nth obind].
      exists md, (x :: hi), [q]. cbn [app length]. split; [reflexivity|]. split; [assumption|].
      split; [assumption|]. split; [reflexivity|].
      split; [apply digits_cons; split; [assumption|constructor]|].
      cbn [val Z.of_nat]. rewrite Z.pow_0_r. lia.
    - destruct (long_step_ok n m lo mid hi vd vz) as (md & x & q & E & L & D & Hq & EV & HV); try assumption.
      cbn [long_div_loop]. rewrite Ll in E. rewrite E. cbn [obind].
      destruct (list_end q0 _ Lq) as (q1 & a & -> & Lq1).
      rewrite <- app_assoc. cbn [app]. rewrite set_nth_mid by lia. cbn [obind].
      destruct (list_end lo _ Ll) as (lo' & d & -> & Ll').
      apply digits_app in Dl as [Dl Hd]. apply digits_cons in Hd as [Hd _].
      rewrite <- (app_assoc lo'). cbn [app].
      replace (lo' ++ d :: md ++ x :: hi) with (lo' ++ (d :: md) ++ x :: hi) by reflexivity.
      destruct (IH lo' (d :: md) (x :: hi) q1 (q :: qhi)) as (r & hi' & ql & E2 & Lr & Dr & Lql & Dql & EE & HR);
        try assumption.
      { cbn [length]. lia. } { apply digits_cons. auto. } { cbn [val]. nia. }
      rewrite E2. exists r, hi', (ql ++ [q]). split; [now rewrite <- app_assoc|].
      split; [assumption|]. split; [assumption|]. split; [rewrite app_length; cbn; lia|].
      split; [apply digits_app; split; [assumption|]; apply digits_cons; split; [assumption|constructor]|].
      split; [|assumption].
      rewrite !val_app, Lql, Ll'. cbn [val] in *. rewrite powB_S in *.
      set (P := B ^ Z.of_nat j) in *. rewrite EV.
      replace (val B lo' + P * (d + B * 0) + B * P * (q * val B vd + val B md))
        with (val B lo' + P * (d + B * val B md) + B * P * q * val B vd) by ring.
      rewrite EE. ring.
  Qed.

  (* ---------------------------------------------------------------- *)
  (* unsigned_long_div *)

  Lemma long_div_ok a b n : length a = (2 * N)%nat -> digits B a -> length b = n -> digits B b ->
    (2 <= n <= 2 * N)%nat -> nth (n - 1) b 0 <> 0 ->
    exists q r, unsigned_long_div pw N a (b ++ repeat 0 (2 * N - n)) n = Some (q, r) /\
      length q = (2 * N)%nat /\ digits B q /\ length r = (2 * N)%nat /\ digits B r /\
      val B q = val B a / val B b /\ val B r = val B a mod val B b.
  Proof.
    intros La Da Lb Db Hn Htop. pose proof (B_pos h Hh) as HB. pose proof (BB pw h Hh Hpw) as HBB.
    unfold unsigned_long_div. rewrite (ns_2N pw h N) by assumption.
    unfold check. destruct (Nat.ltb_spec 1 n); [|lia]. cbn [obind].
    destruct (Nat.leb_spec n (2 * N)); [|lia]. cbn [obind].
    destruct n as [|n]; [lia|]. replace (S n - 1)%nat with n in * by lia.
    destruct (list_end b _ Lb) as (bl & bt & Eb & Lbl).
    assert (Htb : nth n b 0 = bt).
    { rewrite Eb, app_nth2, Lbl, Nat.sub_diag by lia. reflexivity. }
    rewrite Htb in Htop.
    pose proof Db as Db'. rewrite Eb in Db'. apply digits_app in Db' as [Dbl Hbt].
    apply digits_cons in Hbt as [Hbt _].
    assert (Gb : nth_error (b ++ repeat 0 (2 * N - S n)) n = Some bt).
    { rewrite Eb, <- app_assoc. cbn [app]. apply nth_error_mid. lia. }
    rewrite Gb. cbn [obind].
    destruct (find_msb_pos_log2 (T pw) bt) as (p & Ep & Hp & Hp2).
    { unfold ity_ok, T. cbn. lia. }
    { unfold IntSpec.representable, T. cbn [isigned iwidth]. nia. }
    { lia. }
    rewrite Ep. cbn [obind]. rewrite (sw_h pw h Hpw).
    assert (Hph : p < h).
    { apply (Z.pow_lt_mono_r_iff 2); lia. }
    set (s := h - 1 - p). assert (Hs : 0 <= s < h) by (unfold s; lia).
    pose proof (pow_pos2 s ltac:(lia)) as Ps.
    (* u *)
    destruct (norm_loop_ok s Hs (2 * N) a [] 0 (repeat 0 (2 * N)) []) as (u & Eu & Lu & Du & Vu);
      try assumption.
    { apply repeat_length. } { lia. } { apply Z.mod_0_l. lia. }
    rewrite !app_nil_r in Eu.
    replace (repeat 0 (2 * N) ++ [0]) with (repeat 0 (2 * N + 1)) in Eu by (now rewrite repeat_app).
    rewrite Eu. cbn [obind].
    (* v *)
    assert (Hb2 : bt * 2 ^ s < B).
    { replace B with (2 ^ (p + 1) * 2 ^ s) by (rewrite <- Z.pow_add_r by lia; f_equal; unfold s; lia).
      apply Z.mul_lt_mono_pos_r; lia. }
    assert (Hb3 : B <= 2 * (bt * 2 ^ s)).
    { replace B with (2 * (2 ^ p * 2 ^ s)).
      - apply Z.mul_le_mono_nonneg_l; [lia|]. apply Z.mul_le_mono_nonneg_r; lia.
      - rewrite <- Z.pow_add_r by lia. rewrite <- Z.pow_succ_r by lia. f_equal. unfold s. lia. }
    rewrite (shl_small pw h) by (assumption || nia). cbn [obind].
    rewrite pt_id by nia.
    assert (Lrep : repeat 0 (2 * N) = [] ++ repeat 0 n ++ 0 :: repeat 0 (2 * N - S n)).
    { cbn [app]. change (0 :: repeat 0 (2 * N - S n)) with (repeat 0 (S (2 * N - S n))).
      rewrite <- repeat_app. f_equal. lia. }
    assert (Eset : set_nth (repeat 0 (2 * N)) n (bt * 2 ^ s) =
      Some (repeat 0 n ++ bt * 2 ^ s :: repeat 0 (2 * N - S n))).
    { rewrite Lrep. apply set_nth_mid. now rewrite repeat_length. }
    rewrite Eset. cbn [obind].
    destruct (norm_loop_ok s Hs n bl (bt :: repeat 0 (2 * N - S n)) (bt * 2 ^ s) (repeat 0 n)
      (repeat 0 (2 * N - S n))) as (v & Ev & Lv & Dv & Vv); try assumption.
    { apply repeat_length. } { nia. } { apply Z.mod_mul. lia. }
    replace (b ++ repeat 0 (2 * N - S n)) with (bl ++ bt :: repeat 0 (2 * N - S n))
      by (rewrite Eb, <- app_assoc; reflexivity).
    rewrite Ev. cbn [obind].
    assert (EVb : val B v = 2 ^ s * val B b).
    { rewrite Vv, Eb, val_app, Lbl. cbn [val]. ring. }
    assert (EUa : val B u = 2 ^ s * val B a) by lia.
    (* the leading digit of v *)
    assert (Hvtop : B <= 2 * nth n v 0).
    { destruct (list_end v _ Lv) as (vl & vt & Evv & Lvl).
      rewrite Evv, app_nth2, Lvl, Nat.sub_diag by lia. cbn [nth].
      rewrite Evv in Dv, Vv. apply digits_app in Dv as [Dvl Hvt].
      pose proof (val_range B vl ltac:(lia) Dvl) as R. rewrite val_app, Lvl in Vv. rewrite Lvl in R.
      cbn [val] in Vv. pose proof (val_range B bl ltac:(lia) Dbl). pose proof (powB_pos n).
      assert (bt * 2 ^ s <= vt) by nia. lia. }
    (* the main loop *)
    set (m := (2 * N - S n)%nat).
    assert (Esplit : u = firstn m u ++ skipn m u) by (now rewrite firstn_skipn).
    assert (Llo : length (firstn m u) = m) by (rewrite firstn_length; unfold m; lia).
    assert (Lmid : length (skipn m u) = S (S n)) by (rewrite skipn_length; unfold m; lia).
    assert (Dsplit : digits B (firstn m u) /\ digits B (skipn m u)) by (now apply digits_split).
    destruct Dsplit as [Dlo Dmid].
    pose proof (val_range B (firstn m u) ltac:(lia) Dlo) as Rlo. rewrite Llo in Rlo.
    pose proof (val_range B a ltac:(lia) Da) as Ra. rewrite La in Ra.
    pose proof (val_range B bl ltac:(lia) Dbl) as Rbl.
    assert (Vsplit : val B u = val B (firstn m u) + B ^ Z.of_nat m * val B (skipn m u)).
    { rewrite Esplit at 1. rewrite val_app, Llo. reflexivity. }
    assert (Hbn : B ^ Z.of_nat n <= val B b).
    { rewrite Eb, val_app, Lbl. cbn [val]. pose proof (powB_pos n). nia. }
    assert (HU : val B (skipn m u) < val B v * B).
    { assert (EP : B ^ Z.of_nat (2 * N) = B ^ Z.of_nat m * (B * B ^ Z.of_nat n)).
      { rewrite <- powB_S, <- Z.pow_add_r by lia. f_equal. unfold m. lia. }
      pose proof (powB_pos m) as Pm. pose proof (powB_pos n) as Pn.
      assert (B ^ Z.of_nat m * val B (skipn m u) < B ^ Z.of_nat m * (2 ^ s * (B * B ^ Z.of_nat n))) by nia.
      assert (val B (skipn m u) < 2 ^ s * (B * B ^ Z.of_nat n)) by nia.
      rewrite EVb. nia. }
    destruct (long_loop_ok (S n) m v (repeat 0 m) ltac:(lia) ltac:(unfold m; lia) Lv Dv
      ltac:(replace (S n - 1)%nat with n by lia; exact Hvtop)
      m (firstn m u) (skipn m u) [] (repeat 0 (S m)) (repeat 0 (2 * N - S m)) Llo Dlo Lmid Dmid HU
      ltac:(apply repeat_length)) as (r & hi' & ql & E & Lr & Dr & Lql & Dql & EE & HR).
    rewrite app_nil_r, firstn_skipn in E. rewrite <- repeat_app in E.
    replace (S m + (2 * N - S m))%nat with (2 * N)%nat in E by (unfold m; lia).
    rewrite E. cbn [obind].
    assert (EEb : 2 ^ s * val B a = val B ql * val B v + val B r) by lia.
    assert (Hvpos : 0 < val B b) by (pose proof (powB_pos n); lia).
    pose proof (val_range B r ltac:(lia) Dr) as Rr.
    assert (Eqa : val B ql = val B a / val B b /\ val B r = 2 ^ s * (val B a mod val B b)).
    { rewrite EVb in EEb, HR.
      assert (Hq : val B ql = (2 ^ s * val B a) / (2 ^ s * val B b)).
      { apply (Z.div_unique _ _ _ (val B r)); [left; lia|lia]. }
      rewrite Z.div_mul_cancel_l in Hq by lia. split; [assumption|].
      rewrite Z.mod_eq by lia. rewrite <- Hq. lia. }
    destruct Eqa as [Eqa Era].
    (* unnormalize *)
    destruct (srl_ok h s r Hs Dr) as [Dsr Vsr].
    assert (Lsr : length (srl h s r) = S n) by (now rewrite srl_length).
    destruct (list_end (srl h s r) n Lsr) as (sl & st & Esr & Lsl).
    rewrite Lrep. rewrite fill_loop_spec with (l := sl).
    - cbn [obind app].
      assert (Gr : nth_error (r ++ hi') n = Some (nth n r 0)).
      { rewrite nth_error_app1 by lia. apply nth_error_nth_Z. lia. }
      rewrite Gr. cbn [obind]. rewrite shr_ok by lia. cbn [obind].
      rewrite set_nth_mid by lia. cbn [obind].
      pose proof (digit_nth r n B Dr ltac:(lia)) as Hrn.
      assert (0 <= nth n r 0 / 2 ^ s < B).
      { split; [apply Z.div_pos; lia|]. apply Z.div_lt_upper_bound; nia. }
      rewrite pt_id by nia.
      assert (Est : st = nth n r 0 / 2 ^ s).
      { pose proof (srl_nth h s r n (nth n r 0) ltac:(apply nth_error_nth_Z; lia)) as HL.
        rewrite Esr, nth_error_mid, (nth_overflow r 0 (n := S n)) in HL by lia.
        rewrite Z.mod_0_l in HL by lia. injection HL as ->. lia. }
      rewrite <- Est.
      replace (sl ++ st :: repeat 0 (2 * N - S n)) with (srl h s r ++ repeat 0 (2 * N - S n))
        by (rewrite Esr, <- app_assoc; reflexivity).
      exists (ql ++ repeat 0 (2 * N - S m)), (srl h s r ++ repeat 0 (2 * N - S n)).
      split; [reflexivity|].
      split; [rewrite app_length, repeat_length; unfold m in *; lia|].
      split; [apply digits_app; split; [assumption|apply digits_zeros; lia]|].
      split; [rewrite app_length, repeat_length; lia|].
      split; [apply digits_app; split; [assumption|apply digits_zeros; lia]|].
      rewrite !val_app, !val_zeros, Vsr, Era. split; [lia|].
      rewrite Z.mul_0_r, Z.add_0_r, Z.mul_comm, Z.div_mul by lia. reflexivity.
    - intros k Hk. cbn [Nat.add].
      rewrite nth_error_app1 by lia. rewrite (nth_error_nth_Z r) by lia. cbn [obind].
      rewrite nth_error_app1 by lia. rewrite (nth_error_nth_Z r) by lia. cbn [obind].
      rewrite shr_ok by lia. cbn [obind].
      pose proof (digit_nth r k B Dr ltac:(lia)) as Hr1.
      pose proof (digit_nth r (k + 1) B Dr ltac:(lia)) as Hr2.
      pose proof (pow_pos2 (h - s) ltac:(lia)) as Phs.
      assert (EB : B = 2 ^ s * 2 ^ (h - s)) by (rewrite <- Z.pow_add_r by lia; f_equal; lia).
      assert (nth (k + 1) r 0 * 2 ^ (h - s) < M) by nia.
      rewrite (shl_small pw h) by (assumption || lia). cbn [obind].
      rewrite (land_mask pw h) by assumption.
      assert (EX : (nth (k + 1) r 0 * 2 ^ (h - s)) mod B = nth (k + 1) r 0 mod 2 ^ s * 2 ^ (h - s)).
      { rewrite EB. apply Z.mul_mod_distr_r; lia. }
      rewrite EX.
      assert (0 <= nth k r 0 / 2 ^ s < 2 ^ (h - s)).
      { split; [apply Z.div_pos; lia|]. apply Z.div_lt_upper_bound; lia. }
      pose proof (Z.mod_pos_bound (nth (k + 1) r 0) (2 ^ s) Ps).
      rewrite (lor_plus_r _ _ (h - s)) by (lia || (apply Z.mod_mul; lia)).
      rewrite pt_id by nia.
      replace (nth_error sl k) with (nth_error (srl h s r) k).
      2: { rewrite Esr. apply nth_error_app1. lia. }
      rewrite (srl_nth h s r k (nth k r 0)) by (apply nth_error_nth_Z; lia).
      replace (S k) with (k + 1)%nat by lia. reflexivity.
    - exact Lsl.
    - apply repeat_length.
    - reflexivity.
  Qed.

  (* ---------------------------------------------------------------- *)
  (* unsigned_div *)

  Lemma count_ok k : forall b, (k <= length b)%nat -> exists n, count_subparts k b = Some n /\ (n <= k)%nat /\
    firstn k b = firstn n b ++ repeat 0 (k - n) /\ (n = 0%nat \/ nth (n - 1) b 0 <> 0).
  Proof.
    induction k as [|k IH]; intros b Hk.
    - exists 0%nat. repeat split; auto.
    - cbn [count_subparts]. rewrite nth_error_nth_Z by lia. cbn [obind].
      destruct (Z.eqb_spec (nth k b 0) 0) as [E0|E0].
      + destruct (IH b ltac:(lia)) as (n & E & Hn & Ef & Ht). exists n. split; [assumption|].
        split; [lia|]. split; [|assumption].
        rewrite (firstn_snoc b k 0) by (rewrite nth_error_nth_Z by lia; now rewrite E0).
        rewrite Ef. replace (S k - n)%nat with (k - n + 1)%nat by lia. rewrite repeat_app, app_assoc. reflexivity.
      + exists (S k). split; [reflexivity|]. split; [lia|]. split.
        * rewrite Nat.sub_diag, app_nil_r. reflexivity.
        * right. replace (S k - 1)%nat with k by lia. assumption.
  Qed.

  Lemma unsigned_div_ok x y : parts_ok pw N x -> parts_ok pw N y -> uvalue pw y <> 0 ->
    exists q r, unsigned_div pw N x y = Some (q, r) /\ parts_ok pw N q /\ parts_ok pw N r /\
      uvalue pw q = uvalue pw x / uvalue pw y /\ uvalue pw r = uvalue pw x mod uvalue pw y.
  Proof.
    intros Hx Hy Hy0. pose proof (B_pos h Hh) as HB. pose proof (BB pw h Hh Hpw) as HBB. unfold unsigned_div.
    destruct (scatter_ok pw h N Hh Hpw HN x Hx) as (-> & L1 & D1 & V1). cbn [obind].
    destruct (scatter_ok pw h N Hh Hpw HN y Hy) as (-> & L2 & D2 & V2). cbn [obind].
    rewrite (ns_2N pw h N) by assumption.
    destruct (count_ok (2 * N) (halves h y) ltac:(lia)) as (n & -> & Hn & Ef & Ht). cbn [obind].
    rewrite firstn_all2 in Ef by lia.
    assert (Lf : length (firstn n (halves h y)) = n) by (rewrite firstn_length; lia).
    assert (Df : digits B (firstn n (halves h y))) by (now apply digits_firstn).
    assert (Vf : val B (firstn n (halves h y)) = uvalue pw y).
    { rewrite <- V2. rewrite Ef at 2. rewrite val_app, val_zeros. lia. }
    destruct Ht as [->|Ht].
    { cbn in Vf. congruence. }
    destruct (Nat.ltb_spec 1 n) as [Hn1|Hn1].
    - rewrite Ef.
      destruct (long_div_ok (halves h x) (firstn n (halves h y)) n) as (q & r & E & Lq & Dq & Lr & Dr & Vq & Vr);
        try assumption; try lia.
      { rewrite Ef in Ht. rewrite app_nth1 in Ht by lia. exact Ht. }
      rewrite E. cbn [obind].
      destruct (gather_ok pw h N Hh Hpw HN q Lq Dq) as (zq & -> & Hq & Vzq). cbn [obind].
      destruct (gather_ok pw h N Hh Hpw HN r Lr Dr) as (zr & -> & Hr & Vzr). cbn [obind].
      exists zq, zr. split; [reflexivity|]. split; [assumption|]. split; [assumption|].
      rewrite Vzq, Vzr, Vq, Vr, V1, Vf. auto.
    - assert (n = 1%nat \/ n = 0%nat) as [->| ->] by lia; [|cbn in Vf; congruence].
      destruct (halves h y) as [|b0 rest] eqn:Eh; [cbn in L2; lia|].
      cbn [nth_error obind]. cbn [Nat.sub nth] in Ht. cbn [firstn val] in Vf.
      apply digits_cons in D2 as [Hb0 _].
      destruct (short_div_ok b0 ltac:(lia) (2 * N) (halves h x) [] 0 D1 L1 ltac:(lia))
        as (ql & r & E & Lq & Dq & Hr & EV).
      unfold unsigned_short_div. rewrite (ns_2N pw h N) by assumption.
      rewrite !app_nil_r in E. rewrite E. cbn [obind].
      replace (repeat 0 (2 * N)) with (0 :: repeat 0 (2 * N - 1)).
      2: { change (0 :: repeat 0 (2 * N - 1)) with (repeat 0 (S (2 * N - 1))). f_equal. lia. }
      cbn [set_nth obind].
      assert (Lr : length (r :: repeat 0 (2 * N - 1)) = (2 * N)%nat).
      { cbn [length]. rewrite repeat_length. lia. }
      assert (Dr : digits B (r :: repeat 0 (2 * N - 1))).
      { apply digits_cons. split; [lia|]. apply digits_zeros. lia. }
      destruct (gather_ok pw h N Hh Hpw HN ql Lq Dq) as (zq & -> & Hq & Vzq). cbn [obind].
      destruct (gather_ok pw h N Hh Hpw HN _ Lr Dr) as (zr & -> & Hr2 & Vzr). cbn [obind].
      exists zq, zr. split; [reflexivity|]. split; [assumption|]. split; [assumption|].
      rewrite Vzq, Vzr, <- V1. cbn [val]. rewrite val_zeros.
      rewrite Z.mul_0_r, !Z.add_0_r in *. rewrite <- Vf.
      split; [apply (Z.div_unique _ _ _ r); [left|]; lia | apply (Z.mod_unique _ _ (val B ql)); [left|]; lia].
  Qed.

  Lemma unsigned_div_zero x y : parts_ok pw N x -> parts_ok pw N y -> uvalue pw y = 0 ->
    unsigned_div pw N x y = None.
  Proof.
    intros Hx Hy Hy0. pose proof (B_pos h Hh) as HB. pose proof (M2 pw h Hh Hpw) as HM. unfold unsigned_div.
    destruct (scatter_ok pw h N Hh Hpw HN x Hx) as (-> & L1 & D1 & V1). cbn [obind].
    destruct (scatter_ok pw h N Hh Hpw HN y Hy) as (-> & L2 & D2 & V2). cbn [obind].
    assert (Ez : halves h y = repeat 0 (2 * N)).
    { apply (val_inj B); [lia|assumption|apply digits_zeros; lia|now rewrite repeat_length|].
      rewrite val_zeros. congruence. }
    rewrite Ez, (ns_2N pw h N) by assumption.
    assert (Hc : forall k, (k <= 2 * N)%nat -> count_subparts k (repeat 0 (2 * N)) = Some 0%nat).
    { induction k as [|k IH]; intros Hk; [reflexivity|]. cbn [count_subparts].
      rewrite nth_error_nth_Z by (rewrite repeat_length; lia). cbn [obind].
      rewrite (nth_repeat 0 (2 * N) k). cbn [Z.eqb]. apply IH. lia. }
    rewrite Hc by lia. cbn [obind Nat.ltb Nat.leb].
    rewrite nth_error_nth_Z by (rewrite repeat_length; lia). cbn [obind].
    rewrite (nth_repeat 0 (2 * N) 0). unfold unsigned_short_div. rewrite (ns_2N pw h N) by assumption.
    replace (2 * N)%nat with (S (2 * N - 1)) at 1 by lia. cbn [short_div_loop].
    rewrite (sw_h pw h Hpw). rewrite (shl_small pw h) by (assumption || lia). cbn [obind].
    rewrite nth_error_nth_Z by lia. reflexivity.
  Qed.

  Lemma divmod_ok sg x y : parts_ok pw N x -> parts_ok pw N y -> value pw sg y <> 0 ->
    exists q r, divmod pw N sg x y = Some (q, r) /\ parts_ok pw N q /\ parts_ok pw N r /\
      value pw sg q = wrap (big_type pw N sg) (Z.quot (value pw sg x) (value pw sg y)) /\
      value pw sg r = Z.rem (value pw sg x) (value pw sg y).
  Proof.
    intros Hx Hy Hy0. unfold divmod.
    pose proof (W_split pw h N Hh Hpw HN) as HW.
    pose proof (uvalue_range pw h N Hh Hpw HN x Hx) as Rx.
    pose proof (uvalue_range pw h N Hh Hpw HN y Hy) as Ry.
    pose proof (value_range pw h N Hh Hpw HN sg x Hx) as Vx.
    pose proof (value_range pw h N Hh Hpw HN sg y Hy) as Vy.
    rewrite (is_nonneg_ok pw h N Hh Hpw HN sg x Hx), (is_nonneg_ok pw h N Hh Hpw HN sg y Hy). cbn [obind].
    (* the magnitudes *)
    assert (Hmag : forall z, parts_ok pw N z -> value pw sg z < 0 ->
      exists z', neg pw N z = Some z' /\ parts_ok pw N z' /\ uvalue pw z' = - value pw sg z).
    { intros z Hz Hneg. destruct (neg_ok pw h N Hh Hpw HN z Hz) as (z' & E & Hz' & V).
      exists z'. split; [assumption|]. split; [assumption|]. rewrite V.
      pose proof (uvalue_range pw h N Hh Hpw HN z Hz) as Rz.
      destruct (value_cases pw h N Hh Hpw HN sg z Hz) as [[_ Ez]|[(_ & _ & Ez)|(_ & Hzr & Ez)]]; try lia.
      rewrite Ez. rewrite <- (Z.mod_add _ 1) by lia. rewrite Z.mod_small; lia. }
    assert (Hpos : forall z, parts_ok pw N z -> 0 <= value pw sg z -> uvalue pw z = value pw sg z).
    { intros z Hz Hp. pose proof (uvalue_range pw h N Hh Hpw HN z Hz) as Rz.
      destruct (value_cases pw h N Hh Hpw HN sg z Hz) as [[_ Ez]|[(_ & _ & Ez)|(_ & Hzr & Ez)]]; lia. }
    assert (Hremr : in_range (big_type pw N sg) (Z.rem (value pw sg x) (value pw sg y))).
    { unfold in_range, imin, imax, big_type in *. cbn [isigned iwidth] in *.
      destruct sg.
      - destruct (Z.le_gt_cases 0 (value pw true x)).
        + pose proof (Z.rem_bound_pos (value pw true x) (Z.abs (value pw true y)) ltac:(lia) ltac:(lia)).
          rewrite Z.rem_abs_r in * by lia.
          pose proof (Z.rem_le (value pw true x) (Z.abs (value pw true y)) ltac:(lia) ltac:(lia)).
          rewrite Z.rem_abs_r in * by lia. lia.
        + pose proof (Z.rem_bound_pos (- value pw true x) (Z.abs (value pw true y)) ltac:(lia) ltac:(lia)).
          pose proof (Z.rem_le (- value pw true x) (Z.abs (value pw true y)) ltac:(lia) ltac:(lia)).
          rewrite Z.rem_abs_r, Z.rem_opp_l in * by lia. lia.
      - pose proof (Z.rem_le (value pw false x) (value pw false y) ltac:(lia) ltac:(lia)).
        pose proof (Z.rem_nonneg (value pw false x) (value pw false y) ltac:(lia) ltac:(lia)). lia. }
    pose proof (big_ok pw h N Hh Hpw HN sg) as Hok.
    assert (Hfin : forall q r kq kr, parts_ok pw N q -> parts_ok pw N r ->
      uvalue pw q = Z.quot (value pw sg x) (value pw sg y) + kq * 2 ^ W ->
      uvalue pw r = Z.rem (value pw sg x) (value pw sg y) + kr * 2 ^ W ->
      value pw sg q = wrap (big_type pw N sg) (Z.quot (value pw sg x) (value pw sg y)) /\
      value pw sg r = Z.rem (value pw sg x) (value pw sg y)).
    { intros q r kq kr Hq Hr Eq Er. split.
      - exact (value_wrap pw h N Hh Hpw HN sg q _ kq Hq Eq).
      - rewrite (value_wrap pw h N Hh Hpw HN sg r _ kr Hr Er). now apply wrap_id. }
    assert (Hneg : forall z, parts_ok pw N z -> exists z' k, neg pw N z = Some z' /\ parts_ok pw N z' /\
      uvalue pw z' = - uvalue pw z + k * 2 ^ W).
    { intros z Hz. destruct (neg_ok pw h N Hh Hpw HN z Hz) as (z' & E & Hz' & V).
      exists z', (- ((- uvalue pw z) / 2 ^ W)). split; [assumption|]. split; [assumption|].
      rewrite V, Z.mod_eq by lia. lia. }
    destruct (Z.leb_spec 0 (value pw sg x)) as [Px|Nx]; destruct (Z.leb_spec 0 (value pw sg y)) as [Py|Ny].
    - pose proof (Hpos x Hx Px) as Ux. pose proof (Hpos y Hy Py) as Uy.
      destruct (unsigned_div_ok x y Hx Hy ltac:(lia)) as (q & r & -> & Hq & Hr & Vq & Vr).
      exists q, r. split; [reflexivity|]. split; [assumption|]. split; [assumption|].
      apply (Hfin q r 0 0); try assumption.
      + rewrite Vq, Ux, Uy, Z.quot_div_nonneg by lia. lia.
      + rewrite Vr, Ux, Uy, Z.rem_mod_nonneg by lia. lia.
    - pose proof (Hpos x Hx Px) as Ux. destruct (Hmag y Hy Ny) as (y' & -> & Hy' & Uy). cbn [obind].
      destruct (unsigned_div_ok x y' Hx Hy' ltac:(lia)) as (q & r & -> & Hq & Hr & Vq & Vr). cbn [obind].
      destruct (Hneg q Hq) as (q' & k & -> & Hq' & Vq'). cbn [obind].
      exists q', r. split; [reflexivity|]. split; [assumption|]. split; [assumption|].
      apply (Hfin q' r k 0); try assumption.
      + rewrite Vq', Vq, Ux, Uy, <- Z.quot_div_nonneg by lia. rewrite Z.quot_opp_r by lia. lia.
      + rewrite Vr, Ux, Uy, <- Z.rem_mod_nonneg by lia. rewrite Z.rem_opp_r by lia. lia.
    - destruct (Hmag x Hx Nx) as (x' & -> & Hx' & Ux). cbn [obind].
      pose proof (Hpos y Hy Py) as Uy.
      destruct (unsigned_div_ok x' y Hx' Hy ltac:(lia)) as (q & r & -> & Hq & Hr & Vq & Vr). cbn [obind].
      destruct (Hneg q Hq) as (q' & k & -> & Hq' & Vq'). cbn [obind].
      destruct (Hneg r Hr) as (r' & k' & -> & Hr' & Vr'). cbn [obind].
      exists q', r'. split; [reflexivity|]. split; [assumption|]. split; [assumption|].
      apply (Hfin q' r' k k'); try assumption.
      + rewrite Vq', Vq, Ux, Uy, <- Z.quot_div_nonneg by lia. rewrite Z.quot_opp_l by lia. lia.
      + rewrite Vr', Vr, Ux, Uy, <- Z.rem_mod_nonneg by lia. rewrite Z.rem_opp_l by lia. lia.
    - destruct (Hmag x Hx Nx) as (x' & -> & Hx' & Ux). cbn [obind].
      destruct (Hmag y Hy Ny) as (y' & -> & Hy' & Uy). cbn [obind].
      destruct (unsigned_div_ok x' y' Hx' Hy' ltac:(lia)) as (q & r & -> & Hq & Hr & Vq & Vr). cbn [obind].
      destruct (Hneg r Hr) as (r' & k' & -> & Hr' & Vr'). cbn [obind].
      exists q, r'. split; [reflexivity|]. split; [assumption|]. split; [assumption|].
      apply (Hfin q r' 0 k'); try assumption.
      + rewrite Vq, Ux, Uy, <- Z.quot_div_nonneg by lia. rewrite Z.quot_opp_opp by lia. lia.
      + rewrite Vr', Vr, Ux, Uy, <- Z.rem_mod_nonneg by lia. rewrite Z.rem_opp_opp by lia. lia.
  Qed.

  Lemma divmod_zero sg x y : parts_ok pw N x -> parts_ok pw N y -> value pw sg y = 0 ->
    divmod pw N sg x y = None.
  Proof.
    intros Hx Hy Hy0. unfold divmod. pose proof (uvalue_range pw h N Hh Hpw HN y Hy) as Ry.
    rewrite (is_nonneg_ok pw h N Hh Hpw HN sg x Hx), (is_nonneg_ok pw h N Hh Hpw HN sg y Hy). cbn [obind].
    rewrite Hy0. cbn [Z.leb].
    assert (Uy : uvalue pw y = 0).
    { destruct (value_cases pw h N Hh Hpw HN sg y Hy) as [[_ Ez]|[(_ & _ & Ez)|(_ & Hzr & Ez)]]; lia. }
    destruct (0 <=? value pw sg x); cbn [Z.compare].
    - now apply unsigned_div_zero.
    - destruct (neg_ok pw h N Hh Hpw HN x Hx) as (x' & -> & Hx' & _). cbn [obind].
      now rewrite unsigned_div_zero.
  Qed.
End S.
