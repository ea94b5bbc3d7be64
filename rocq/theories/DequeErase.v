(* Lemmas about the model of Deque::erase(). *)
From Coq Require Import ZArith List Bool Arith Lia ZifyBool.
From Verif Require Import CInt IntModel IntProofs BufferModel BufferProofs ArrLib UninitModel UninitProofs UninitIndex DequeModel DequeProofs.
Import ListNotations.
Open Scope nat_scope.

Section Erase.
Context {T : Type}.
Context (W : Z).
Notation mem := (list (option T)).

Lemma move_up_idx' (m : mem) p n d : 0 < d -> live_at m p n -> (n = 0 \/ free_at m (p + n) d) ->
  exists m', uninit_move_upwards m p n d = Some m' /\ length m' = length m /\
    (forall j, nth_error m' j = if n =? 0 then nth_error m j else
                                if inr p d j then Some None
                                else if inr (p + d) n j then nth_error m (j - d) else nth_error m j).
Proof.
  intros Hd Hl Hf. destruct (Nat.eqb_spec n 0) as [->|Hn].
  - exists m. auto.
  - destruct Hf as [?|Hf]; [lia|]. apply move_up_idx; [lia|lia|assumption..].
Qed.

Lemma move_down_idx' (m : mem) p n d : 0 < d -> live_at m p n -> (n = 0 \/ d <= p /\ free_at m (p - d) d) ->
  exists m', uninit_move_downwards m p n d = Some m' /\ length m' = length m /\
    (forall j, nth_error m' j = if n =? 0 then nth_error m j else
                                if inr (p - d) n j then nth_error m (j + d)
                                else if inr (p - d + n) d j then Some None else nth_error m j).
Proof.
  intros Hd Hl Hf. destruct (Nat.eqb_spec n 0) as [->|Hn].
  - exists m. rewrite move_down_0. auto.
  - destruct Hf as [?|[? Hf]]; [lia|]. apply move_down_idx; [lia|lia|assumption..].
Qed.

Lemma nth_error_erase (xs : list T) b e i : b <= e <= length xs ->
  nth_error (firstn b xs ++ skipn e xs) i = if i <? b then nth_error xs i else nth_error xs (i + (e - b)).
Proof.
  intros H. rewrite nth_error_app_if, firstn_length, nth_error_firstn_if, nth_error_skipn_add.
  rewrite Nat.min_l by lia. bcases; [reflexivity|]. f_equal. lia.
Qed.

Lemma erased_length (xs : list T) b e : b <= e <= length xs -> length (firstn b xs ++ skipn e xs) = length xs - (e - b).
Proof. intros H. rewrite app_length, firstn_length, skipn_length. lia. Qed.

(* the elements that are moved are found by erase *)
Definition front_ok (d : deq T) (b e : nat) : Prop :=
  d_size d <= d_alloc d - d_offset d \/ e <= d_alloc d - d_offset d \/ b <= d_alloc d - d_offset d.
Definition back_ok (d : deq T) (b e : nat) : Prop :=
  d_size d <= d_alloc d - d_offset d \/ d_alloc d - d_offset d <= e \/
  e - b <= d_size d - (d_alloc d - d_offset d).

Lemma live_idx (m : mem) (xs : list T) p n :
  (forall j, p <= j -> j < p + n -> exists i, i < length xs /\ nth_error m j = Some (nth_error xs i)) -> live_at m p n.
Proof.
  intros H j A B. destruct (H j A B) as (i & Hi & ->). destruct (nth_error_within xs i Hi) as (y & ->). now exists y.
Qed.

Lemma free_idx (m : mem) p n :
  (forall j, p <= j -> j < p + n -> nth_error m j = Some None) -> free_at m p n.
Proof.
  intros H j A B. exact (H j A B).
Qed.

(* decide the outermost condition on the left *)
Ltac prune := try (exfalso; lia).
Ltac hd := repeat match goal with
  | |- (if (?a <=? ?b) && _ then _ else _) = _ => destruct (Nat.leb_spec a b); cbn [andb]; prune
  | |- (if ?a <? ?b then _ else _) = _ => destruct (Nat.ltb_spec a b); prune
  | |- (if ?a <=? ?b then _ else _) = _ => destruct (Nat.leb_spec a b); prune
  | |- (if ?a =? ?b then _ else _) = _ => destruct (Nat.eqb_spec a b); prune
  end.
Ltac hv := match goal with Hv : forall j, j < _ -> _ |- _ => rewrite Hv by lia end.
Ltac dec := match goal with
  | |- context [if ?a <=? ?b then _ else _] => destruct (Nat.leb_spec a b); prune
  | |- context [if ?a <? ?b then _ else _] => destruct (Nat.ltb_spec a b); prune
  end.
(* slot j still holds an element of xs; slot j is free *)
Ltac lv d i := first [exists i; split; [unfold unwrap; repeat dec; lia|]; unfold inr; hd; hv; reflexivity].
Ltac fr xs := unfold inr; hd; first [reflexivity | hv; unfold unwrap; repeat dec; rewrite (nth_error_beyond xs) by lia; reflexivity].
Ltac leaf xs := first
  [ reflexivity
  | rewrite (nth_error_beyond xs) by lia; reflexivity
  | hv; unfold unwrap; f_equal; repeat dec; first [f_equal; lia | rewrite !(nth_error_beyond xs) by lia; reflexivity] ].
(* final memory against the specification *)
Ltac final d xs := unfold inr; hd; unfold unwrap; repeat dec; leaf xs.

Lemma erase_near_front_ok d xs b s : drepr W d xs -> 0 < s -> b + (b + s) < length xs -> front_ok d b (b + s) ->
  exists d', erase_near_front d b (b + s) = Some d' /\ drepr W d' (firstn b xs ++ skipn (b + s) xs).
Proof.
  intros Hr Hs0 Hnear Hok. pose proof Hr as (Hs & Hv). pose proof Hs as (S1 & S2 & S2' & S3 & S4 & S5).
  unfold front_ok in Hok. rewrite S3 in Hok. unfold erase_near_front. rewrite S3.
  replace (b + s - b) with s by lia.
  replace (0 <? s) with true by lia. cbn [negb]. set (top := d_alloc d - d_offset d) in *.
  assert (Htop : d_alloc d = d_offset d + top /\ 0 < top) by lia. destruct Htop as [Htop Htop0].
  assert (Hlen : exists r, length xs = b + s + S r) by (exists (length xs - b - s - 1); lia). destruct Hlen as (r & Hlen).
  assert (Fin : forall m' : mem, length m' = d_alloc d ->
    (forall j, j < d_alloc d -> nth_error m' j = Some (
       if unwrap d j <? s then None else
       if unwrap d j <? b + s then nth_error xs (unwrap d j - s) else nth_error xs (unwrap d j))) ->
    drepr W (Deq m' (wrap d s) (length xs - s) (d_alloc d)) (firstn b xs ++ skipn (b + s) xs)).
  { intros m' L I. split; [split|].
    - exact L.
    - cbn [d_mem d_alloc d_offset d_size]. rewrite erased_length by lia. unfold wrap. bcases; lia.
    - cbn [d_mem d_alloc]. intros j A. rewrite I by exact A. rewrite nth_error_erase by lia. f_equal.
      unfold unwrap, wrap. cbn [d_offset d_alloc].
      destruct (Nat.leb_spec (d_offset d) j); destruct (Nat.ltb_spec s (d_alloc d - d_offset d)); bcases';
        first [f_equal; lia | rewrite !(nth_error_beyond xs) by lia; reflexivity]. }
  clearbody top. assert (Hcap : length xs < d_offset d + top) by lia. clear S2 S2' S4 S5.
  assert (Simple : b + s <= top -> exists d',
    (let? r := (let? m := uninit_destroy (d_mem d) (d_offset d + b) s in Some (m, b)) in
     let? m := uninit_move_upwards (fst r) (d_offset d) (snd r) s in
     Some (Deq m (wrap d s) (length xs - s) (d_alloc d))) = Some d' /\ drepr W d' (firstn b xs ++ skipn (b + s) xs)).
  { intros Hle.
    destruct (destroy_idx (d_mem d) (d_offset d + b) s) as (m1 & -> & L1 & I1).
    { apply (live_idx _ xs). intros j A B. lv d (unwrap d j). }
    cbn [obind fst snd].
    destruct (move_up_idx' m1 (d_offset d) b s) as (m2 & -> & L2 & I2); [lia| | |].
    { apply (live_idx _ xs). intros j A B. rewrite I1. lv d (unwrap d j). }
    { right. apply free_idx. intros j A B. rewrite I1. fr xs. }
    cbn [obind]. eexists. split; [reflexivity|]. apply Fin; [lia|].
    intros j A. rewrite I2, !I1. final d xs. }
  destruct (Nat.ltb_spec top (length xs)) as [Hdiv|Hdiv]; [|apply Simple; lia].
  destruct (Nat.leb_spec (b + s) top) as [He|He]; [apply Simple; lia|]. clear Simple.
  destruct (Nat.leb_spec top b) as [Hb|Hb].
  - (* b = top *)
    assert (b = top) by lia. subst b. rewrite Nat.sub_diag. clear He Hb Hok.
    destruct (destroy_idx (d_mem d) 0 s) as (m1 & -> & L1 & I1).
    { apply (live_idx _ xs). intros j A B. lv d (unwrap d j). }
    cbn [obind]. rewrite move_up_0. cbn [obind fst snd].
    assert (Hn : exists n k l, Nat.min s top = n /\ top = n + k /\ s = n + l /\ (k = 0 \/ l = 0)).
    { exists (Nat.min s top), (top - s), (s - top). lia. }
    destruct Hn as (n & k & l & -> & Ek & El & Hkl).
    replace (top - n) with k by lia. replace (s - n) with l by lia.
    destruct (move_in_idx n m1 (d_offset d + k) l) as (m2 & -> & L2 & I2).
    { apply (live_idx _ xs). intros j A B. rewrite I1. lv d (unwrap d j). }
    { apply free_idx. intros j A B. rewrite I1. fr xs. }
    cbn [obind fst snd].
    destruct (move_up_idx' m2 (d_offset d) k s) as (m3 & -> & L3 & I3); [lia| | |].
    { apply (live_idx _ xs). intros j A B. rewrite I2, !I1. lv d (unwrap d j). }
    { destruct Hkl as [Hkl|Hkl]; [left; lia|right].
      apply free_idx. intros j A B. rewrite I2, !I1. fr xs. }
    cbn [obind]. eexists. split; [reflexivity|]. apply Fin; [lia|].
    intros j A. rewrite I3, !I2, !I1. destruct Hkl; subst; final d xs.
  - assert (Ha : exists after before, b + s - top = after /\ s - after = before /\ top = b + before /\ s = before + after)
      by (exists (b + s - top), (top - b); lia).
    destruct Ha as (after & before & Ea & Eb & Ha1 & Ha2). rewrite Ea, Eb.
    destruct (destroy_idx (d_mem d) (d_offset d + b) before) as (m1 & -> & L1 & I1).
    { apply (live_idx _ xs). intros j A B. lv d (unwrap d j). }
    cbn [obind].
    destruct (destroy_idx m1 0 after) as (m2 & -> & L2 & I2).
    { apply (live_idx _ xs). intros j A B. rewrite I1. lv d (unwrap d j). }
    cbn [obind fst snd].
    assert (Hn : exists n k l, Nat.min after b = n /\ b = n + k /\ after = n + l /\ (k = 0 \/ l = 0)).
    { exists (Nat.min after b), (b - after), (after - b). lia. }
    destruct Hn as (n & k & l & -> & Ek & El & Hkl).
    replace (b - n) with k by lia. replace (after - n) with l by lia. clear He Hb Hok Ea Eb.
    destruct (move_in_idx n m2 (d_offset d + k) l) as (m3 & -> & L3 & I3).
    { apply (live_idx _ xs). intros j A B. rewrite I2, I1. lv d (unwrap d j). }
    { apply free_idx. intros j A B. rewrite I2, I1. fr xs. }
    cbn [obind fst snd].
    destruct (move_up_idx' m3 (d_offset d) k s) as (m4 & -> & L4 & I4); [lia| | |].
    { apply (live_idx _ xs). intros j A B. rewrite I3, !I2, !I1. lv d (unwrap d j). }
    { destruct Hkl as [Hkl|Hkl]; [left; lia|right].
      apply free_idx. intros j A B. rewrite I3, !I2, !I1. fr xs. }
    cbn [obind]. eexists. split; [reflexivity|]. apply Fin; [lia|].
    intros j A. rewrite I4, !I3, !I2, !I1. destruct Hkl; subst; final d xs.
Qed.

Lemma erase_near_back_ok d xs b s : drepr W d xs -> 0 < s -> b + s <= length xs -> back_ok d b (b + s) ->
  exists d', erase_near_back d b (b + s) = Some d' /\ drepr W d' (firstn b xs ++ skipn (b + s) xs).
Proof.
  intros Hr Hs0 Hbe Hok. pose proof Hr as (Hs & Hv). pose proof Hs as (S1 & S2 & S2' & S3 & S4 & S5).
  unfold back_ok in Hok. rewrite S3 in Hok. unfold erase_near_back. rewrite S3.
  replace (b + s - b) with s in * by lia.
  replace (0 <? s) with true by lia. cbn [negb]. set (top := d_alloc d - d_offset d) in *.
  assert (Htop : d_alloc d = d_offset d + top /\ 0 < top) by lia. destruct Htop as [Htop Htop0].
  assert (Hlen : exists r, length xs = b + s + r /\ length xs - (b + s) = r) by (exists (length xs - b - s); lia).
  destruct Hlen as (r & Hlen & Er). rewrite Er.
  assert (Fin : forall m' : mem, length m' = d_alloc d ->
    (forall j, j < d_alloc d -> nth_error m' j = Some (
       if unwrap d j <? b then nth_error xs (unwrap d j) else nth_error xs (unwrap d j + s))) ->
    drepr W (Deq m' (d_offset d) (length xs - s) (d_alloc d)) (firstn b xs ++ skipn (b + s) xs)).
  { intros m' L I. split; [split|].
    - exact L.
    - cbn [d_mem d_alloc d_offset d_size]. rewrite erased_length by lia. lia.
    - cbn [d_mem d_alloc]. intros j A. rewrite I by exact A. rewrite nth_error_erase by lia.
      replace (b + s - b) with s by lia. reflexivity. }
  clearbody top. assert (Hcap : length xs < d_offset d + top) by lia. clear S2 S2' S4 S5.
  destruct (Nat.ltb_spec top (length xs)) as [Hdiv|Hdiv].
  - destruct (Nat.leb_spec top b) as [Hb|Hb].
    + assert (Ht : exists c, b - top = c /\ b = top + c) by (exists (b - top); lia). destruct Ht as (c & -> & Hc).
      destruct (destroy_idx (d_mem d) c s) as (m1 & -> & L1 & I1).
      { apply (live_idx _ xs). intros j A B. lv d (unwrap d j). }
      cbn [obind fst snd]. replace (b + s <=? length xs) with true by lia. cbn [negb].
      replace (b + s - top) with (c + s) by lia. rewrite Er. clear Hok Hb Hdiv Er.
      destruct (move_down_idx' m1 (c + s) r s) as (m2 & -> & L2 & I2); [lia| | |].
      { apply (live_idx _ xs). intros j A B. rewrite I1. lv d (unwrap d j). }
      { right. split; [lia|]. apply free_idx. intros j A B. rewrite I1. fr xs. }
      cbn [obind]. eexists. split; [reflexivity|]. apply Fin; [lia|].
      intros j A. rewrite I2, !I1. replace (c + s - s) with c by lia. final d xs.
    + destruct (Nat.leb_spec (b + s) top) as [He|He].
      * assert (Ht : exists c, top - (b + s) = c /\ top = b + s + c) by (exists (top - (b + s)); lia).
        destruct Ht as (c & -> & Hc).
        destruct (destroy_idx (d_mem d) (d_offset d + b) s) as (m1 & -> & L1 & I1).
        { apply (live_idx _ xs). intros j A B. lv d (unwrap d j). }
        cbn [obind].
        destruct (move_down_idx' m1 (d_offset d + (b + s)) c s) as (m2 & -> & L2 & I2); [lia| | |].
        { apply (live_idx _ xs). intros j A B. rewrite I1. lv d (unwrap d j). }
        { right. split; [lia|]. apply free_idx. intros j A B. rewrite I1. fr xs. }
        cbn [obind fst snd].
        replace (d_offset d + (b + s) - s) with (d_offset d + b) in I2 by lia.
        assert (Hn : exists n k l, Nat.min s r = n /\ s = n + l /\ length xs = top + n + k /\ (k = 0 \/ l = 0)).
        { exists (Nat.min s r), (length xs - top - Nat.min s r), (s - r). lia. }
        destruct Hn as (n & k & l & -> & En & Ek & Hkl).
        destruct (move_in_idx n m2 0 (d_offset d + (top - s))) as (m3 & -> & L3 & I3).
        { apply (live_idx _ xs). intros j A B. rewrite I2, !I1. lv d (unwrap d j). }
        { apply free_idx. intros j A B. rewrite I2, !I1. fr xs. }
        cbn [obind fst snd]. replace (top + n <=? length xs) with true by lia. cbn [negb].
        replace (top + n - top) with n by lia. replace (length xs - (top + n)) with k by lia.
        replace (top - s) with (b + c) in I3 by lia. clear Hb He Hdiv Hok Er.
        destruct (move_down_idx' m3 n k s) as (m4 & -> & L4 & I4); [lia| | |].
        { apply (live_idx _ xs). intros j A B. rewrite I3, !I2, !I1. lv d (unwrap d j). }
        { destruct Hkl as [Hkl|Hkl]; [left; lia|right]. split; [lia|].
          apply free_idx. intros j A B. rewrite I3, !I2, !I1. fr xs. }
        cbn [obind]. eexists. split; [reflexivity|]. apply Fin; [lia|].
        intros j A. rewrite I4, !I3, !I2, !I1. destruct Hkl; subst; final d xs.
      * assert (Ha : exists after before, b + s - top = after /\ s - after = before /\ top = b + before /\ s = before + after)
          by (exists (b + s - top), (top - b); lia).
        destruct Ha as (after & before & Ea & Eb & Ha1 & Ha2). rewrite Ea, Eb.
        destruct (destroy_idx (d_mem d) (d_offset d + b) before) as (m1 & -> & L1 & I1).
        { apply (live_idx _ xs). intros j A B. lv d (unwrap d j). }
        cbn [obind].
        destruct (destroy_idx m1 0 after) as (m2 & -> & L2 & I2).
        { apply (live_idx _ xs). intros j A B. rewrite I1. lv d (unwrap d j). }
        cbn [obind fst snd].
        assert (Hn : exists n k l, Nat.min before r = n /\ before = n + l /\ r = n + k /\ (k = 0 \/ l = 0)).
        { exists (Nat.min before r), (r - before), (before - r). lia. }
        destruct Hn as (n & k & l & -> & En & Ek & Hkl).
        replace (top - before) with b by lia.
        destruct (move_in_idx n m2 after (d_offset d + b)) as (m3 & -> & L3 & I3).
        { apply (live_idx _ xs). intros j A B. rewrite I2, !I1. lv d (unwrap d j). }
        { apply free_idx. intros j A B. rewrite I2, !I1. fr xs. }
        cbn [obind fst snd]. replace (b + s + n <=? length xs) with true by lia. cbn [negb].
        replace (b + s + n - top) with (after + n) by lia. replace (length xs - (b + s + n)) with k by lia.
        clear Hb He Hdiv Hok Er Ea Eb.
        destruct (move_down_idx' m3 (after + n) k s) as (m4 & -> & L4 & I4); [lia| | |].
        { apply (live_idx _ xs). intros j A B. rewrite I3, !I2, !I1. lv d (unwrap d j). }
        { destruct Hkl as [Hkl|Hkl]; [left; lia|right]. split; [lia|].
          apply free_idx. intros j A B. rewrite I3, !I2, !I1. fr xs. }
        cbn [obind]. eexists. split; [reflexivity|]. apply Fin; [lia|].
        intros j A. rewrite I4, !I3, !I2, !I1. destruct Hkl; subst; final d xs.
  - destruct (destroy_idx (d_mem d) (d_offset d + b) s) as (m1 & -> & L1 & I1).
    { apply (live_idx _ xs). intros j A B. lv d (unwrap d j). }
    cbn [obind fst snd]. replace (b + s <=? length xs) with true by lia. cbn [negb]. rewrite Er. clear Hok Er.
    destruct (move_down_idx' m1 (d_offset d + b + s) r s) as (m2 & -> & L2 & I2); [lia| | |].
    { apply (live_idx _ xs). intros j A B. rewrite I1. lv d (unwrap d j). }
    { right. split; [lia|]. apply free_idx. intros j A B. rewrite I1. fr xs. }
    cbn [obind]. eexists. split; [reflexivity|]. apply Fin; [lia|].
    intros j A. rewrite I2, !I1. replace (d_offset d + b + s - s) with (d_offset d + b) by lia. final d xs.
Qed.

(* The cases in which erase goes wrong *)

Lemma move_loop_oob n : forall (m : mem) p q, 0 < n -> length m < p + n -> move_down_loop m p q n = None.
Proof.
  induction n as [|n IH]; intros m p q Hn Hb; [lia|]. cbn [move_down_loop]. unfold fetch.
  destruct (nth_error m p) as [[x|]|] eqn:Hx; [|reflexivity..]. cbn [obind].
  destruct (create m q x) as [m1|] eqn:E1; [|reflexivity]. cbn [obind].
  destruct (kill m1 p) as [m2|] eqn:E2; [|reflexivity]. cbn [obind].
  assert (length m1 = length m).
  { unfold create in E1. destruct (nth_error m q) as [[]|]; try discriminate. now apply set_nth_length in E1. }
  assert (length m2 = length m1).
  { unfold kill in E2. destruct (nth_error m1 p) as [[]|]; try discriminate. now apply set_nth_length in E2. }
  destruct (Nat.eq_dec n 0) as [->|Hn0].
  - assert (p < length m) by (apply nth_error_Some; congruence). lia.
  - apply IH; lia.
Qed.

Lemma move_loop_free n : forall (m : mem) p q k, k < n -> nth_error m (p + k) = Some None ->
  ~ q <= p + k < q + n -> move_down_loop m p q n = None.
Proof.
  induction n as [|n IH]; intros m p q k Hk Hf Hq; [lia|]. cbn [move_down_loop]. unfold fetch.
  destruct (nth_error m p) as [[x|]|] eqn:Hx; [|reflexivity..]. cbn [obind].
  destruct k as [|k]; [rewrite Nat.add_0_r in Hf; congruence|].
  destruct (nth_error m q) as [[y|]|] eqn:Hy.
  - unfold create. now rewrite Hy.
  - destruct (create_idx m q x Hy) as (m1 & -> & L1 & I1). cbn [obind].
    destruct (kill_idx m1 p x) as (m2 & -> & L2 & I2).
    { rewrite I1. bcases; [congruence|exact Hx]. }
    cbn [obind]. apply (IH m2 (S p) (S q) k); [lia| |lia].
    rewrite I2, I1. replace (S p + k) with (p + S k) by lia. bcases; [lia|lia|exact Hf].
  - unfold create. now rewrite Hy.
Qed.

Lemma erase_near_front_ub d xs b s : drepr W d xs -> 0 < s -> b + (b + s) < length xs -> ~ front_ok d b (b + s) ->
  erase_near_front d b (b + s) = None.
Proof.
  intros Hr Hs0 Hnear Hok. pose proof Hr as (Hs & Hv). pose proof Hs as (S1 & S2 & S2' & S3 & S4 & S5).
  unfold front_ok in Hok. rewrite S3 in Hok. unfold erase_near_front. rewrite S3.
  replace (b + s - b) with s by lia.
  replace (0 <? s) with true by lia. cbn [negb]. set (top := d_alloc d - d_offset d) in *.
  replace (top <? length xs) with true by lia. replace (b + s <=? top) with false by lia.
  replace (top <=? b) with true by lia.
  assert (Ht : exists c, b - top = c /\ b = top + c) by (exists (b - top); lia). destruct Ht as (c & -> & Hc).
  assert (Htop : d_alloc d = d_offset d + top /\ 0 < top) by lia. clearbody top.
  destruct (destroy_idx (d_mem d) c s) as (m1 & -> & L1 & I1).
  { apply (live_idx _ xs). intros j A B. lv d (unwrap d j). }
  cbn [obind].
  destruct (move_up_idx' m1 0 c s) as (m2 & -> & L2 & I2); [lia| | |].
  { apply (live_idx _ xs). intros j A B. rewrite I1. lv d (unwrap d j). }
  { right. apply free_idx. intros j A B. rewrite I1. fr xs. }
  cbn [obind fst snd]. rewrite move_loop_oob; [reflexivity|lia|lia].
Qed.

Lemma erase_near_back_ub d xs b s : drepr W d xs -> 0 < s -> b + s <= length xs -> ~ back_ok d b (b + s) ->
  erase_near_back d b (b + s) = None.
Proof.
  intros Hr Hs0 Hbe Hok. pose proof Hr as (Hs & Hv). pose proof Hs as (S1 & S2 & S2' & S3 & S4 & S5).
  unfold back_ok in Hok. rewrite S3 in Hok. unfold erase_near_back. rewrite S3.
  replace (b + s - b) with s in * by lia.
  replace (0 <? s) with true by lia. cbn [negb]. set (top := d_alloc d - d_offset d) in *.
  replace (top <? length xs) with true by lia. replace (b + s <=? top) with true by lia.
  replace (top <=? b) with false by lia.
  assert (Ht : exists c, top - (b + s) = c /\ top = b + s + c) by (exists (top - (b + s)); lia).
  destruct Ht as (c & -> & Hc).
  assert (Htop : d_alloc d = d_offset d + top /\ 0 < top) by lia. clearbody top.
  destruct (destroy_idx (d_mem d) (d_offset d + b) s) as (m1 & -> & L1 & I1).
  { apply (live_idx _ xs). intros j A B. lv d (unwrap d j). }
  cbn [obind].
  destruct (move_down_idx' m1 (d_offset d + (b + s)) c s) as (m2 & -> & L2 & I2); [lia| | |].
  { apply (live_idx _ xs). intros j A B. rewrite I1. lv d (unwrap d j). }
  { right. split; [lia|]. apply free_idx. intros j A B. rewrite I1. fr xs. }
  cbn [obind fst snd].
  replace (d_offset d + (b + s) - s) with (d_offset d + b) in I2 by lia.
  rewrite (move_loop_free _ m2 0 _ (length xs - top)); [reflexivity|lia| |lia].
  rewrite I2, !I1. fr xs.
Qed.

End Erase.
