(* Lemmas about rand_int(). *)
From Coq Require Import ZArith Bool List Lia ZifyBool.
From Verif Require Import CInt IntModel IntProofs3 RandIntModel RandIntSpec ArrLib.
Import ListNotations.
Open Scope Z_scope.

Definition digs (pw : Z) (a : list Z) : Prop := Forall (fun x => 0 <= x < 2 ^ pw) a.
Definition P (pw : Z) (n : nat) : Z := 2 ^ (Z.of_nat n * pw).

Lemma P_0 pw : P pw 0 = 1. Proof. reflexivity. Qed.
Lemma P_S pw n : 1 <= pw -> P pw (S n) = 2 ^ pw * P pw n.
Proof. intros H. unfold P. rewrite <- Z.pow_add_r by lia. f_equal. lia. Qed.
Lemma P_pos pw n : 1 <= pw -> 0 < P pw n.
Proof. intros H. unfold P. apply Z.pow_pos_nonneg; lia. Qed.
Lemma B_ge2 pw : 1 <= pw -> 2 <= 2 ^ pw.
Proof. intros H. change 2 with (2 ^ 1) at 1. apply Z.pow_le_mono_r; lia. Qed.

Lemma pv_range pw a : 1 <= pw -> digs pw a -> 0 <= parts_value pw a < P pw (length a).
Proof.
  intros Hp. induction 1 as [|x a Hx F IH]; cbn [parts_value length]; [cbn; lia|].
  rewrite P_S by assumption. nia.
Qed.

Lemma get_parts_ok pw np : 1 <= pw -> forall v, length (get_parts pw np v) = np /\ digs pw (get_parts pw np v) /\
  parts_value pw (get_parts pw np v) = v mod P pw np.
Proof.
  intros Hp. pose proof (B_ge2 pw Hp) as B2. induction np as [|np IH]; intros v; cbn [get_parts length parts_value].
  - split; [reflexivity|]. split; [constructor|]. rewrite P_0. now rewrite Z.mod_1_r.
  - destruct (IH (v / 2 ^ pw)) as (L & D & V). split; [congruence|]. split.
    + constructor; [apply Z.mod_pos_bound; lia|exact D].
    + rewrite V, P_S by assumption. pose proof (P_pos pw np Hp). rewrite Z.rem_mul_r by lia. reflexivity.
Qed.

Lemma add_parts_ok pw : 1 <= pw -> forall a b c, length a = length b -> digs pw a -> digs pw b ->
  length (add_parts pw a b c) = length a /\ digs pw (add_parts pw a b c) /\
  exists q, 0 <= q <= 1 /\
    parts_value pw (add_parts pw a b c) + q * P pw (length a) = parts_value pw a + parts_value pw b + (if c then 1 else 0).
Proof.
  intros Hp. pose proof (B_ge2 pw Hp) as B2.
  induction a as [|x a IH]; intros [|y b] c L Da Db; try discriminate.
  - cbn. split; [reflexivity|]. split; [constructor|]. exists (if c then 1 else 0). destruct c; lia.
  - inversion Da; inversion Db; subst. cbn [length] in *. injection L as L. cbn [add_parts].
    set (p2 := (x + y) mod 2 ^ pw). set (p3 := (p2 + _) mod 2 ^ pw). cbv zeta. cbn [length parts_value].
    assert (X : exists q : bool, (p2 <? x) || (p3 <? p2) = q /\ p3 + (if q then 1 else 0) * 2 ^ pw = x + y + (if c then 1 else 0) /\ 0 <= p3 < 2 ^ pw).
    { assert (Hp2 : 0 <= p2 < 2 ^ pw) by (apply Z.mod_pos_bound; lia).
      assert (E2 : p2 = x + y \/ p2 = x + y - 2 ^ pw).
      { unfold p2. destruct (Z.ltb_spec (x + y) (2 ^ pw)).
        - left. apply Z.mod_small. lia.
        - right. symmetry. apply (Z.mod_unique _ _ 1); lia. }
      assert (Hp3 : 0 <= p3 < 2 ^ pw) by (apply Z.mod_pos_bound; lia).
      assert (E3 : p3 = p2 + (if c then 1 else 0) \/ p3 = p2 + (if c then 1 else 0) - 2 ^ pw).
      { unfold p3. destruct (Z.ltb_spec (p2 + (if c then 1 else 0)) (2 ^ pw)).
        - left. apply Z.mod_small. destruct c; lia.
        - right. symmetry. apply (Z.mod_unique _ _ 1); destruct c; lia. }
      eexists. split; [reflexivity|]. split; [|exact Hp3].
      clearbody p2 p3. destruct (Z.ltb_spec p2 x), (Z.ltb_spec p3 p2); cbn [orb]; destruct c; lia. }
    destruct X as (q & -> & E & R3).
    destruct (IH b q L ltac:(assumption) ltac:(assumption)) as (L' & D' & q' & Hq' & V').
    split; [congruence|]. split; [constructor; assumption|].
    exists q'. split; [exact Hq'|]. rewrite P_S by assumption.
    replace (q' * (2 ^ pw * P pw (length a))) with (2 ^ pw * (q' * P pw (length a))) by ring.
    replace (parts_value pw (add_parts pw a b q)) with (parts_value pw a + parts_value pw b + (if q then 1 else 0) - q' * P pw (length a)) by lia.
    destruct q; lia.
Qed.

Lemma sub_parts_ok pw : 1 <= pw -> forall a b c, length a = length b -> digs pw a -> digs pw b ->
  length (sub_parts pw a b c) = length a /\ digs pw (sub_parts pw a b c) /\
  exists q, 0 <= q <= 1 /\
    parts_value pw (sub_parts pw a b c) - q * P pw (length a) = parts_value pw a - parts_value pw b - (if c then 1 else 0).
Proof.
  intros Hp. pose proof (B_ge2 pw Hp) as B2.
  induction a as [|x a IH]; intros [|y b] c L Da Db; try discriminate.
  - cbn. split; [reflexivity|]. split; [constructor|]. exists (if c then 1 else 0). destruct c; lia.
  - inversion Da; inversion Db; subst. cbn [length] in *. injection L as L. cbn [sub_parts].
    set (p2 := (x - y) mod 2 ^ pw). set (p3 := (p2 - _) mod 2 ^ pw). cbv zeta. cbn [length parts_value].
    assert (X : exists q : bool, (x <? p2) || (p2 <? p3) = q /\ p3 - (if q then 1 else 0) * 2 ^ pw = x - y - (if c then 1 else 0) /\ 0 <= p3 < 2 ^ pw).
    { assert (Hp2 : 0 <= p2 < 2 ^ pw) by (apply Z.mod_pos_bound; lia).
      assert (E2 : p2 = x - y \/ p2 = x - y + 2 ^ pw).
      { unfold p2. destruct (Z.ltb_spec (x - y) 0).
        - right. symmetry. apply (Z.mod_unique _ _ (-1)); lia.
        - left. apply Z.mod_small. lia. }
      assert (Hp3 : 0 <= p3 < 2 ^ pw) by (apply Z.mod_pos_bound; lia).
      assert (E3 : p3 = p2 - (if c then 1 else 0) \/ p3 = p2 - (if c then 1 else 0) + 2 ^ pw).
      { unfold p3. destruct (Z.ltb_spec (p2 - (if c then 1 else 0)) 0).
        - right. symmetry. apply (Z.mod_unique _ _ (-1)); destruct c; lia.
        - left. apply Z.mod_small. destruct c; lia. }
      eexists. split; [reflexivity|]. split; [|exact Hp3].
      clearbody p2 p3. destruct (Z.ltb_spec x p2), (Z.ltb_spec p2 p3); cbn [orb]; destruct c; lia. }
    destruct X as (q & -> & E & R3).
    destruct (IH b q L ltac:(assumption) ltac:(assumption)) as (L' & D' & q' & Hq' & V').
    split; [congruence|]. split; [constructor; assumption|].
    exists q'. split; [exact Hq'|]. rewrite P_S by assumption.
    replace (q' * (2 ^ pw * P pw (length a))) with (2 ^ pw * (q' * P pw (length a))) by ring.
    replace (parts_value pw (sub_parts pw a b q)) with (parts_value pw a - parts_value pw b - (if q then 1 else 0) + q' * P pw (length a)) by lia.
    destruct q; lia.
Qed.

(* Value from the most significant end *)
Lemma pv_app pw a b : 1 <= pw -> parts_value pw (a ++ b) = parts_value pw a + P pw (length a) * parts_value pw b.
Proof.
  intros Hp. induction a as [|x a IH]; cbn [app parts_value length]; [rewrite P_0; lia|]. rewrite IH, P_S by assumption. ring.
Qed.

Lemma digs_rev pw a : digs pw (rev a) <-> digs pw a.
Proof.
  unfold digs. rewrite !Forall_forall. split; intros H x Hx; apply H.
  - now rewrite <- in_rev.
  - now rewrite in_rev.
Qed.

Lemma less_rev_ok pw : 1 <= pw -> forall ra rb, length ra = length rb -> digs pw ra -> digs pw rb ->
  less_rev ra rb = (parts_value pw (rev ra) <? parts_value pw (rev rb)).
Proof.
  intros Hp. induction ra as [|x ra IH]; intros [|y rb] L Da Db; try discriminate; [reflexivity|].
  inversion Da; inversion Db; subst. cbn [length] in L. injection L as L. cbn [less_rev rev].
  rewrite !pv_app by assumption. rewrite !rev_length. rewrite <- L. cbn [parts_value]. rewrite !Z.mul_0_r, !Z.add_0_r.
  pose proof (pv_range pw (rev ra) Hp (proj2 (digs_rev pw ra) ltac:(assumption))) as Ra.
  pose proof (pv_range pw (rev rb) Hp (proj2 (digs_rev pw rb) ltac:(assumption))) as Rb.
  rewrite rev_length in Ra, Rb. rewrite <- L in Rb.
  destruct (Z.eqb_spec x y) as [->|Ne].
  - rewrite IH by assumption. destruct (Z.ltb_spec (parts_value pw (rev ra)) (parts_value pw (rev rb))); lia.
  - destruct (Z.ltb_spec x y); nia.
Qed.

Lemma less_parts_ok pw a b : 1 <= pw -> length a = length b -> digs pw a -> digs pw b ->
  less_parts a b = (parts_value pw a <? parts_value pw b).
Proof.
  intros Hp L Da Db. unfold less_parts. rewrite (less_rev_ok pw Hp).
  - now rewrite !rev_involutive.
  - now rewrite !rev_length.
  - now apply digs_rev.
  - now apply digs_rev.
Qed.

Lemma find_msb_rev_ok pw : 1 <= pw -> forall ra, digs pw ra ->
  find_msb_rev pw ra = Some (if parts_value pw (rev ra) =? 0 then -1 else Z.log2 (parts_value pw (rev ra))).
Proof.
  intros Hp. induction ra as [|x ra IH]; intros D; [reflexivity|]. inversion D; subst. cbn [find_msb_rev rev].
  rewrite pv_app by assumption. rewrite rev_length. cbn [parts_value]. rewrite Z.mul_0_r, Z.add_0_r.
  pose proof (pv_range pw (rev ra) Hp (proj2 (digs_rev pw ra) ltac:(assumption))) as Ra. rewrite rev_length in Ra.
  destruct (Z.eqb_spec x 0) as [->|Ne]; cbn [negb].
  - rewrite Z.mul_0_r, Z.add_0_r. now apply IH.
  - rewrite int_find_msb_pos_spec.
    + cbn [obind]. rewrite (proj2 (Z.eqb_neq x 0) Ne). f_equal.
      set (V := parts_value pw (rev ra) + P pw (length ra) * x).
      assert (HV : 0 < V) by (unfold V; nia).
      rewrite (proj2 (Z.eqb_neq V 0)) by lia. symmetry. apply Z.log2_unique; [pose proof (Z.log2_nonneg x); nia|].
      pose proof (Z.log2_spec x ltac:(lia)) as (L1 & L2). pose proof (Z.log2_nonneg x) as L0.
      replace (Z.succ (Z.of_nat (length ra) * pw + Z.log2 x)) with (Z.of_nat (length ra) * pw + Z.succ (Z.log2 x)) by lia.
      rewrite !Z.pow_add_r by lia. fold (P pw (length ra)). unfold V. nia.
    + cbn. lia.
    + unfold in_range, imin, imax. cbn. lia.
    + lia.
Qed.

Lemma find_msb_ok pw a : 1 <= pw -> digs pw a ->
  find_msb pw a = Some (if parts_value pw a =? 0 then -1 else Z.log2 (parts_value pw a)).
Proof.
  intros Hp D. unfold find_msb. rewrite (find_msb_rev_ok pw Hp) by now apply digs_rev. now rewrite rev_involutive.
Qed.

(* Draws *)
Lemma draw_full_ok : forall r i parts rest, (i + length r <= length parts)%nat ->
  draw_full (length r) i parts (r ++ rest) = Some (firstn i parts ++ r ++ skipn (i + length r) parts, rest).
Proof.
  induction r as [|x r IH]; intros i parts rest H; cbn [length draw_full app] in *.
  - rewrite Nat.add_0_r. now rewrite firstn_skipn.
  - rewrite set_nth_some by lia. cbn [obind].
    assert (Lf : length (firstn i parts) = i) by (rewrite firstn_length; lia).
    rewrite IH.
    + do 2 f_equal. rewrite firstn_app, Lf. replace (S i - i)%nat with 1%nat by lia. rewrite (firstn_all2 (firstn i parts)) by lia.
      change (firstn 1 (x :: skipn (S i) parts)) with [x]. rewrite <- app_assoc. cbn [app]. do 3 f_equal.
      rewrite skipn_app, Lf. rewrite (skipn_all2 (firstn i parts)) by lia. cbn [app].
      replace (S i + length r - i)%nat with (S (length r)) by lia. cbn [skipn].
      clear. revert i parts. induction i as [|i IHi]; intros parts.
      * destruct parts; cbn; [now rewrite skipn_nil|reflexivity].
      * destruct parts; cbn [skipn Nat.add]; [now rewrite !skipn_nil|]. rewrite IHi. reflexivity.
    + rewrite app_length, Lf. cbn [length]. rewrite skipn_length. lia.
Qed.

Lemma pv_round pw r : parts_value pw r = round_number pw r.
Proof. induction r as [|x r IH]; [reflexivity|]. cbn [parts_value round_number fold_right] in *. fold (round_number pw r). now rewrite IH. Qed.

Lemma pv_zeros pw k : parts_value pw (repeat 0 k) = 0.
Proof. induction k as [|k IH]; [reflexivity|]. cbn [repeat parts_value]. rewrite IH. lia. Qed.

Lemma Forall2_len {A B} (R : A -> B -> Prop) l1 l2 : Forall2 R l1 l2 -> length l1 = length l2.
Proof. induction 1; cbn; congruence. Qed.

(* The draws of a round *)
Definition num_draws (pw nb : Z) : nat := Z.to_nat (nb / pw) + (if nb mod pw =? 0 then 0 else 1).

Lemma valid_round_length pw nb r : valid_round pw nb r -> length r = num_draws pw nb.
Proof.
  intros H. apply Forall2_len in H. rewrite <- H. unfold draw_widths, num_draws. rewrite app_length, repeat_length.
  destruct (nb mod pw =? 0); reflexivity.
Qed.

Lemma valid_round_split pw nb r : valid_round pw nb r -> exists r1 r2, r = r1 ++ r2 /\
  length r1 = Z.to_nat (nb / pw) /\ digs pw r1 /\
  Forall2 (fun w x => 0 <= x < 2 ^ w) (if nb mod pw =? 0 then [] else [nb mod pw]) r2.
Proof.
  intros H. unfold valid_round, draw_widths in H. apply Forall2_app_inv_l in H. destruct H as (r1 & r2 & H1 & H2 & ->).
  exists r1, r2. split; [reflexivity|]. split; [rewrite <- (Forall2_len _ _ _ H1); apply repeat_length|]. split; [|exact H2].
  clear H2. revert H1. generalize (Z.to_nat (nb / pw)) as k. intros k. revert r1. induction k as [|k IH]; intros r1 H1; cbn [repeat] in H1.
  - inversion H1. constructor.
  - inversion H1; subst. constructor; [assumption|]. now apply IH.
Qed.

Lemma num_draws_le pw nb np : 1 <= pw -> 0 <= nb <= Z.of_nat np * pw -> (num_draws pw nb <= np)%nat.
Proof.
  intros Hp H. unfold num_draws. pose proof (Z.div_mod nb pw ltac:(lia)). pose proof (Z.mod_pos_bound nb pw ltac:(lia)).
  pose proof (Z.div_pos nb pw ltac:(lia) ltac:(lia)).
  destruct (Z.eqb_spec (nb mod pw) 0); nia.
Qed.

Lemma valid_round_digs pw nb r : 1 <= pw -> valid_round pw nb r -> digs pw r.
Proof.
  intros Hp H. destruct (valid_round_split _ _ _ H) as (r1 & r2 & -> & _ & D1 & H2). apply Forall_app. split; [exact D1|].
  pose proof (Z.mod_pos_bound nb pw ltac:(lia)) as M.
  destruct (Z.eqb_spec (nb mod pw) 0); inversion H2; subst; [constructor|].
  match goal with H : Forall2 _ [] _ |- _ => inversion H; subst end.
  constructor; [|constructor]. pose proof (Z.pow_le_mono_r 2 (nb mod pw) pw ltac:(lia) ltac:(lia)). lia.
Qed.

Lemma valid_round_range pw nb r : 1 <= pw -> 0 <= nb -> valid_round pw nb r -> 0 <= round_number pw r < 2 ^ nb.
Proof.
  intros Hp Hn H. destruct (valid_round_split _ _ _ H) as (r1 & r2 & -> & L1 & D1 & H2).
  rewrite <- pv_round, pv_app by assumption. pose proof (pv_range pw r1 Hp D1) as R1.
  pose proof (Z.mod_pos_bound nb pw ltac:(lia)) as M. pose proof (Z.div_mod nb pw ltac:(lia)) as DM.
  pose proof (Z.div_pos nb pw Hn ltac:(lia)) as Dp.
  assert (E : 2 ^ nb = P pw (length r1) * 2 ^ (nb mod pw)).
  { unfold P. rewrite L1, Z2Nat.id by lia. rewrite <- Z.pow_add_r by nia. f_equal. lia. }
  rewrite E. pose proof (P_pos pw (length r1) Hp).
  destruct (Z.eqb_spec (nb mod pw) 0) as [X|X]; inversion H2; subst.
  - rewrite X. cbn [parts_value]. change (2 ^ 0) with 1. lia.
  - match goal with H : Forall2 _ [] _ |- _ => inversion H; subst end. cbn [parts_value]. nia.
Qed.

(* Each number has exactly one representation *)
Lemma pv_inj pw : 1 <= pw -> forall a b, length a = length b -> digs pw a -> digs pw b ->
  parts_value pw a = parts_value pw b -> a = b.
Proof.
  intros Hp. induction a as [|x a IH]; intros [|y b] L Da Db E; try discriminate; [reflexivity|].
  inversion Da; inversion Db; subst. injection L as L. cbn [parts_value] in E.
  assert (E1 : x = y).
  { rewrite <- (Z.mod_small x (2 ^ pw)), <- (Z.mod_small y (2 ^ pw)) by assumption.
    rewrite <- (Z.mod_add x (parts_value pw a) (2 ^ pw)), <- (Z.mod_add y (parts_value pw b) (2 ^ pw)) by lia.
    f_equal. lia. }
  subst y. f_equal. apply IH; try assumption. nia.
Qed.

Lemma valid_round_exists pw nb v : 1 <= pw -> 0 <= nb -> 0 <= v < 2 ^ nb ->
  exists r, valid_round pw nb r /\ round_number pw r = v.
Proof.
  intros Hp Hn Hv. pose proof (Z.mod_pos_bound nb pw ltac:(lia)) as M. pose proof (Z.div_mod nb pw ltac:(lia)) as DM.
  pose proof (Z.div_pos nb pw Hn ltac:(lia)) as Dp.
  set (k := Z.to_nat (nb / pw)).
  destruct (get_parts_ok pw k Hp v) as (L & D & V). pose proof (P_pos pw k Hp) as Pp.
  assert (E : 2 ^ nb = P pw k * 2 ^ (nb mod pw)).
  { unfold P, k. rewrite Z2Nat.id by lia. rewrite <- Z.pow_add_r by nia. f_equal. lia. }
  assert (F1 : Forall2 (fun w x => 0 <= x < 2 ^ w) (repeat pw k) (get_parts pw k v)).
  { clear V E Hv Dp DM M. revert D L. generalize (get_parts pw k v) as l. clear. induction k as [|k IH]; intros [|x l] D L; try discriminate; cbn [repeat].
    - constructor.
    - inversion D; subst. constructor; [assumption|]. apply IH; [assumption|]. now injection L. }
  exists (get_parts pw k v ++ (if nb mod pw =? 0 then [] else [v / P pw k])). split.
  - unfold valid_round, draw_widths. fold k. apply Forall2_app; [exact F1|].
    destruct (Z.eqb_spec (nb mod pw) 0); [constructor|]. constructor; [|constructor].
    split; [apply Z.div_pos; lia|]. apply Z.div_lt_upper_bound; lia.
  - rewrite <- pv_round, pv_app, L, V by assumption. rewrite (Z.div_mod v (P pw k)) at 3 by lia.
    destruct (Z.eqb_spec (nb mod pw) 0) as [X|X]; cbn [parts_value].
    + rewrite X in E. rewrite Z.div_small by (change (2 ^ 0) with 1 in E; lia). lia.
    + lia.
Qed.

(* The loop *)
Lemma draw_loop_ok pw nb np diff : 1 <= pw -> 0 <= nb <= Z.of_nat np * pw -> length diff = np -> digs pw diff ->
  forall rounds rest parts, Forall (valid_round pw nb) rounds -> length parts = np ->
  skipn (num_draws pw nb) parts = repeat 0 (np - num_draws pw nb) ->
  draw_loop (length rounds) (Z.to_nat (nb / pw)) (nb mod pw) diff parts (concat rounds ++ rest) =
  match find (fun r => round_number pw r <=? parts_value pw diff) rounds with
  | Some r => Some (r ++ repeat 0 (np - num_draws pw nb))
  | None => None
  end.
Proof.
  intros Hp Hnb Ld Dd. induction rounds as [|r rounds IH]; intros rest parts F L Z0; cbn [length draw_loop concat find]; [reflexivity|].
  inversion F as [|r' rs' Hr Hrs]; subst r' rs'.
  pose proof (num_draws_le pw nb np Hp Hnb) as ND. pose proof (valid_round_length _ _ _ Hr) as Lr.
  pose proof (valid_round_digs _ _ _ Hp Hr) as Dr.
  destruct (valid_round_split _ _ _ Hr) as (r1 & r2 & -> & L1 & _ & H2).
  pose proof (Z.mod_pos_bound nb pw ltac:(lia)) as M.
  assert (S1 : exists draws, (let? st := draw_full (Z.to_nat (nb / pw)) 0 parts (((r1 ++ r2) ++ concat rounds) ++ rest) in
      let (parts, draws) := st : list Z * list Z in
      let? st :=
        if 0 <? nb mod pw then
          match draws with
          | [] => None
          | x :: draws => let? parts := set_nth parts (Z.to_nat (nb / pw)) x in Some (parts, draws)
          end
        else Some (parts, draws) in Some (st : list Z * list Z)) = Some ((r1 ++ r2) ++ repeat 0 (np - num_draws pw nb), draws) /\ draws = concat rounds ++ rest).
  { exists (concat rounds ++ rest). split; [|reflexivity]. rewrite <- !app_assoc, <- L1.
    rewrite app_length in Lr. rewrite draw_full_ok by lia. cbn [firstn app obind Nat.add].
    destruct (Z.eqb_spec (nb mod pw) 0) as [X|X].
    - inversion H2; subst r2. rewrite X. cbn [Z.ltb Z.compare obind app length] in *. rewrite Nat.add_0_r in Lr. now rewrite Lr, Z0.
    - inversion H2 as [|w x ws xs Hx Hn]; subst. inversion Hn; subst. rewrite (proj2 (Z.ltb_lt _ _)) by lia. cbn [app length] in *.
      destruct (skipn (length r1) parts) as [|y tl] eqn:Es.
      { apply (f_equal (@length Z)) in Es. rewrite skipn_length in Es. cbn in Es. lia. }
      rewrite set_nth_app. cbn [obind]. do 2 f_equal. f_equal. f_equal.
      rewrite <- Lr in Z0 |- *. rewrite Nat.add_1_r in *. rewrite <- Z0. clear - Es. revert Es. generalize (length r1) as i. intros i. revert parts.
      induction i as [|i IHi]; intros [|z parts] Es; try discriminate; cbn [skipn] in *.
      + now inversion Es.
      + apply IHi. exact Es. }
  destruct S1 as (draws & S1 & ->).
  set (full := draw_full _ _ _ _) in *. destruct full as [(p1 & d1)|]; [|discriminate]. cbn [obind] in *.
  set (ext := if 0 <? nb mod pw then _ else _) in *. destruct ext as [(p2 & d2)|]; [|discriminate]. cbn [obind] in *.
  injection S1 as -> ->.
  set (r := r1 ++ r2) in *. set (z := repeat 0 (np - num_draws pw nb)) in *.
  assert (Lz : length (r ++ z) = np) by (rewrite app_length; unfold z; rewrite repeat_length; lia).
  assert (Dz : digs pw (r ++ z)).
  { apply Forall_app. split; [exact Dr|]. unfold z. apply Forall_forall. intros x Hx. apply repeat_spec in Hx. subst x.
    pose proof (B_ge2 pw Hp). lia. }
  assert (Vz : parts_value pw (r ++ z) = round_number pw r).
  { rewrite pv_app by assumption. unfold z. rewrite pv_zeros, pv_round. lia. }
  rewrite (less_parts_ok pw diff (r ++ z) Hp ltac:(congruence) Dd Dz), Vz.
  destruct (Z.leb_spec (round_number pw r) (parts_value pw diff)) as [Y|Y].
  - rewrite (proj2 (Z.ltb_ge _ _)) by lia. reflexivity.
  - rewrite (proj2 (Z.ltb_lt _ _)) by lia. cbn [negb]. apply IH; try assumption.
    rewrite skipn_app. rewrite Lr, Nat.sub_diag. rewrite skipn_all2 by lia. reflexivity.
Qed.
