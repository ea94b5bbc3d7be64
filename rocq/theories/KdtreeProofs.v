From Coq Require Import ZArith Lia Bool List Permutation ZifyBool.
From Verif Require Import ArrLib KdtreeModel KdtreeSpec.
Import ListNotations.
Open Scope Z_scope.

Lemma at_mid {A} (l : list A) p r i : i = Z.of_nat (length l) -> at_ (l ++ p :: r) i = Some p.
Proof.
  intros ->. unfold at_. replace (0 <=? Z.of_nat (length l)) with true by lia. rewrite Nat2Z.id.
  rewrite nth_error_app2, Nat.sub_diag by lia. reflexivity.
Qed.

Lemma at_some {A} (l : list A) i : 0 <= i < Z.of_nat (length l) -> exists v, at_ l i = Some v.
Proof.
  intros H. unfold at_. replace (0 <=? i) with true by lia.
  destruct (nth_error l (Z.to_nat i)) eqn:E; [eauto|]. apply nth_error_None in E. lia.
Qed.

Lemma at_in {A} (l : list A) i v : at_ l i = Some v -> In v l.
Proof. unfold at_. destruct (0 <=? i); [apply nth_error_In|discriminate]. Qed.

Section Proofs.
  Variable point : Type.
  Variable comp : point -> Z -> Z.
  Variable k max_levels : Z.
  Hypothesis Hk : 1 <= k.
  Hypothesis Hml : 0 <= max_levels.

  Lemma next_dim_ok dim : 0 <= dim < k -> next_dim k dim = (dim + 1) mod k /\ 0 <= next_dim k dim < k.
  Proof.
    intros H. unfold next_dim. rewrite Z.rem_mod_nonneg by lia. split; [reflexivity|]. apply Z.mod_pos_bound. lia.
  Qed.

  Lemma midpoint_ok a (nl nr : nat) : (nl = nr \/ S nl = nr)%nat -> midpoint a (a + Z.of_nat (nl + 1 + nr)) = a + Z.of_nat nl.
  Proof.
    intros H. unfold midpoint. f_equal. rewrite Z.quot_div_nonneg by lia. symmetry.
    destruct H; [apply Z.div_unique with 0|apply Z.div_unique with 1]; lia.
  Qed.

  Lemma midpoint_range a b : a < b -> let nl := Z.to_nat (midpoint a b - a) in let nr := Z.to_nat (b - midpoint a b - 1) in
    a <= midpoint a b < b /\ (nl = nr \/ S nl = nr)%nat.
  Proof.
    intros H. unfold midpoint. rewrite Z.quot_div_nonneg by lia.
    pose proof (Z.div_mod (b - a - 1) 2 ltac:(lia)). pose proof (Z.mod_pos_bound (b - a - 1) 2 ltac:(lia)).
    cbn zeta. lia.
  Qed.

  Lemma push_ok {A} (pending : list A) r m : 2 <= m -> m * 2 ^ Z.of_nat (length pending) < 2 ^ max_levels ->
    push max_levels pending r = Some (r :: pending).
  Proof.
    intros Hm H. unfold push.
    assert (Hlt : Z.of_nat (length pending) < max_levels).
    { apply (Z.pow_lt_mono_r_iff 2); try lia. assert (0 < 2 ^ Z.of_nat (length pending)) by (apply Z.pow_pos_nonneg; lia). nia. }
    now replace (Z.of_nat (length pending) <? max_levels) with true by lia.
  Qed.

  Lemma level_bound m m' n : 0 <= m' -> 2 * m' <= m -> m * 2 ^ Z.of_nat n < 2 ^ max_levels ->
    m' * 2 ^ Z.of_nat (S n) < 2 ^ max_levels.
  Proof.
    intros H0 H H1. rewrite Nat2Z.inj_succ, Z.pow_succ_r by lia.
    assert (0 < 2 ^ Z.of_nat n) by (apply Z.pow_pos_nonneg; lia). nia.
  Qed.

  (* ---- sort ---- *)

  Section Sort.
    Variable ne : (point -> point -> bool) -> nat -> list point -> list point.
    Hypothesis Hne : nth_element_ok point ne.
    Notation loop := (sort_loop point comp k max_levels ne).

    Definition pop fuel pts (pending : list range) : option (list point) :=
      match pending with
      | r :: pending => loop fuel pts (next_dim k (r_parents_dim r)) (r_begin r) (r_end r) pending
      | [] => Some pts
      end.

    Lemma less_ok dim : strict_weak point (fun p q => comp p dim <? comp q dim).
    Proof. split; [intros; lia|]. split; intros; lia. Qed.

    Lemma kd_perm_node dim l l' p r r' : (length l = length r \/ S (length l) = length r)%nat ->
      Permutation l l' -> Permutation r r' ->
      (forall q, In q l -> comp q dim <= comp p dim) -> (forall q, In q r -> comp p dim <= comp q dim) ->
      kd point comp k ((dim + 1) mod k) l' -> kd point comp k ((dim + 1) mod k) r' ->
      kd point comp k dim (l' ++ p :: r').
    Proof.
      intros Hb Pl Pr Hl Hr Kl Kr. constructor; try assumption.
      - rewrite <- (Permutation_length Pl), <- (Permutation_length Pr). assumption.
      - intros q Hq. apply Hl. now apply (Permutation_in q (Permutation_sym Pl)).
      - intros q Hq. apply Hr. now apply (Permutation_in q (Permutation_sym Pr)).
    Qed.

    Lemma sort_seg : forall n m pre seg post dim a b pending fuel, (m <= n)%nat -> (1 <= m)%nat -> length seg = m ->
      a = Z.of_nat (length pre) -> b = a + Z.of_nat m -> 0 <= dim < k ->
      Z.of_nat m * 2 ^ Z.of_nat (length pending) < 2 ^ max_levels ->
      exists seg', Permutation seg seg' /\ kd point comp k dim seg' /\
        loop (m + fuel) (pre ++ seg ++ post) dim a b pending = pop fuel (pre ++ seg' ++ post) pending.
    Proof.
      induction n as [|n IH]; intros m pre seg post dim a b pending fuel Hmn Hm Hseg Ha Hb Hd Hp; [lia|].
      destruct m as [|m]; [lia|]. cbn [Nat.add sort_loop]. replace (a <? b) with true by lia.
      destruct (midpoint_range a b ltac:(lia)) as [Hc Hbal]. set (c := midpoint a b) in *.
      assert (Es : firstn (Z.to_nat (b - a)) (skipn (Z.to_nat a) (pre ++ seg ++ post)) = seg).
      { rewrite skipn_app, skipn_all2 by lia. replace (Z.to_nat a - length pre)%nat with 0%nat by lia.
        cbn [skipn app]. rewrite firstn_app, firstn_all2 by lia.
        replace (Z.to_nat (b - a) - length seg)%nat with 0%nat by lia. cbn [firstn]. apply app_nil_r. }
      assert (Ef : firstn (Z.to_nat a) (pre ++ seg ++ post) = pre).
      { rewrite firstn_app, firstn_all2 by lia. replace (Z.to_nat a - length pre)%nat with 0%nat by lia.
        cbn [firstn]. apply app_nil_r. }
      assert (Et : skipn (Z.to_nat b) (pre ++ seg ++ post) = post).
      { rewrite app_assoc, skipn_app, skipn_all2 by (rewrite app_length; lia).
        rewrite app_length. replace (Z.to_nat b - (length pre + length seg))%nat with 0%nat by lia. reflexivity. }
      rewrite Es, Ef, Et.
      destruct (Hne (fun p q => comp p dim <? comp q dim) (Z.to_nat (c - a)) seg (less_ok dim) ltac:(lia)) as [Pn Hn].
      set (seg1 := ne (fun p q => comp p dim <? comp q dim) (Z.to_nat (c - a)) seg) in *.
      assert (L1 : length seg1 = S m) by (rewrite <- (Permutation_length Pn); exact Hseg).
      destruct (nth_error seg1 (Z.to_nat (c - a))) as [p|] eqn:Ep; [|apply nth_error_None in Ep; lia].
      destruct (nth_error_split _ _ Ep) as (l & r & E1 & Ll).
      assert (Lr : length r = Z.to_nat (b - c - 1)).
      { rewrite E1, app_length in L1. cbn [length] in L1. lia. }
      assert (Hl : forall q, In q l -> comp q dim <= comp p dim).
      { intros q Hq. apply In_nth_error in Hq as [i Hi].
        assert (i < length l)%nat by (apply nth_error_Some; congruence).
        pose proof (Hn i (Z.to_nat (c - a)) q p ltac:(lia)) as Hx. rewrite E1 in Hx at 1. rewrite nth_error_app1 in Hx by lia.
        specialize (Hx Hi Ep). lia. }
      assert (Hr : forall q, In q r -> comp p dim <= comp q dim).
      { intros q Hq. apply In_nth_error in Hq as [i Hi].
        pose proof (Hn (Z.to_nat (c - a)) (S (length l) + i)%nat p q ltac:(lia) Ep) as Hx. rewrite E1 in Hx.
        rewrite nth_error_app2 in Hx by lia. replace (S (length l) + i - length l)%nat with (S i) in Hx by lia.
        specialize (Hx Hi). lia. }
      rewrite <- Ll, <- Lr in Hbal. rewrite E1 in Pn |- *. clear Hn Es Ef Et Ep. clearbody seg1. clear E1 L1 seg1.
      destruct (next_dim_ok dim Hd) as [Nd Hd2]. clearbody c.
      replace (pre ++ (l ++ p :: r) ++ post) with (pre ++ l ++ (p :: r ++ post)) by (rewrite <- !app_assoc; reflexivity).
      destruct r as [|r0 r'].
      - (* a single point *)
        cbn [length] in *. assert (length l = 0%nat) by lia. destruct l; [|discriminate].
        replace (c + 1 <? b) with false by lia. cbn [obind]. replace (a <? c) with false by lia.
        cbn [length] in Ll. assert (Hm0 : m = 0%nat) by lia. rewrite Hm0.
        exists [p]. split; [exact Pn|]. split; [|reflexivity].
        apply (kd_perm_node dim [] [] p [] []); try assumption; try constructor; auto.
      - set (r := r0 :: r') in *. assert (Hrl : (1 <= length r)%nat) by (cbn; lia). clearbody r.
        replace (c + 1 <? b) with true by lia.
        rewrite (push_ok pending _ (Z.of_nat (S m))) by (assumption || lia). cbn [obind].
        assert (Hml2 : (S m = length l + 1 + length r)%nat) by lia.
        (* sort of the right range after the left one is done *)
        assert (Right : forall l', Permutation l l' -> kd point comp k ((dim + 1) mod k) l' ->
          exists seg', Permutation (l ++ p :: r) seg' /\ kd point comp k dim seg' /\
            pop (length r + fuel) (pre ++ l' ++ p :: r ++ post) ({| r_parents_dim := dim; r_begin := c + 1; r_end := b |} :: pending) =
            pop fuel (pre ++ seg' ++ post) pending).
        { intros l' Pl Kl. cbn [pop r_parents_dim r_begin r_end].
          destruct (IH (length r) (pre ++ l' ++ [p]) r post (next_dim k dim) (c + 1) b pending fuel)
            as (r'' & Pr & Kr & Er); try lia.
          - rewrite !app_length, <- (Permutation_length Pl). cbn [length]. lia.
          - exists (l' ++ p :: r''). split; [apply Permutation_app; [exact Pl|now constructor]|]. split.
            + rewrite Nd in Kr. now apply (kd_perm_node dim l l' p r r'').
            + replace (pre ++ l' ++ p :: r ++ post) with ((pre ++ l' ++ [p]) ++ r ++ post) by (rewrite <- !app_assoc; reflexivity).
              rewrite Er. f_equal. rewrite <- !app_assoc. reflexivity. }
        destruct (Z.ltb_spec a c) as [Hac|Hac].
        + destruct (IH (length l) pre l (p :: r ++ post) (next_dim k dim) a c (Range dim (c + 1) b :: pending) (length r + fuel)%nat)
            as (l' & Pl & Kl & El); try lia.
          * cbn [length]. apply (level_bound (Z.of_nat (S m))); try assumption; lia.
          * destruct (Right l' Pl) as (seg' & Ps & Ks & E); [now rewrite Nd in Kl|].
            exists seg'. split; [now apply Permutation_trans with (l ++ p :: r)|]. split; [exact Ks|].
            rewrite <- E, <- El. f_equal. lia.
        + destruct l; [|cbn [length] in *; lia].
          destruct (Right []) as (seg' & Ps & Ks & E); [constructor|constructor|].
          exists seg'. split; [now apply Permutation_trans with ([] ++ p :: r)|]. split; [exact Ks|].
          rewrite <- E. cbn [pop r_parents_dim r_begin r_end]. f_equal. cbn [length] in Hml2. lia.
    Qed.

    Lemma sort_ok pts : Z.of_nat (length pts) < 2 ^ max_levels ->
      exists pts', kdtree_sort point comp k max_levels ne pts = Some pts' /\ Permutation pts pts' /\ kd point comp k 0 pts'.
    Proof.
      intros Hl. unfold kdtree_sort. destruct (Z.eqb_spec (Z.of_nat (length pts)) 0) as [H0|H0]; cbn [negb].
      - exists pts. split; [reflexivity|]. split; [reflexivity|]. destruct pts; [constructor|discriminate].
      - destruct (sort_seg (length pts) (length pts) [] pts [] 0 0 (Z.of_nat (length pts)) [] 0) as (seg' & P & K & E); try lia; try reflexivity.
        + cbn [length Z.of_nat]. lia.
        + rewrite Nat.add_0_r in E. cbn [app pop] in E. rewrite !app_nil_r in E. exists seg'. split; [exact E|]. split; assumption.
    Qed.
  End Sort.

  (* ---- find ---- *)

  Section Find.
    Variable query : list Z.
    Hypothesis Hq : Z.of_nat (length query) = k.
    Notation sqd := (sqdist point comp query).
    Notation loop := (find_loop point comp k max_levels query).

    Lemma sqdist_from_nonneg l : forall i p, 0 <= sqdist_from point comp i l p.
    Proof. induction l as [|q l IH]; intros i p; cbn [sqdist_from]; [lia|]. specialize (IH (i + 1) p). nia. Qed.

    Lemma at_skip (l : list Z) i q r : 0 <= i -> skipn (Z.to_nat i) l = q :: r ->
      at_ l i = Some q /\ skipn (Z.to_nat (i + 1)) l = r.
    Proof.
      intros Hi H. unfold at_. replace (0 <=? i) with true by lia. replace (Z.to_nat (i + 1)) with (S (Z.to_nat i)) by lia.
      revert l H. induction (Z.to_nat i) as [|n IH]; intros [|x l] H; cbn [skipn nth_error] in *; try discriminate.
      - split; congruence.
      - destruct (IH l H) as [A B]. split; [exact A|]. exact B.
    Qed.

    Lemma sqdist_loop_ok p : forall l i acc, 0 <= i -> skipn (Z.to_nat i) query = l ->
      sqdist_loop point comp query (length l) i p acc = Some (acc + sqdist_from point comp i l p).
    Proof.
      induction l as [|q l IH]; intros i acc Hi Hl; cbn [length sqdist_loop sqdist_from]; [f_equal; lia|].
      destruct (at_skip query i q l Hi Hl) as [A B]. rewrite A. cbn [obind]. rewrite IH by (assumption || lia).
      f_equal. unfold square. lia.
    Qed.

    Lemma sqdist_ok p : sqdist_loop point comp query (Z.to_nat k) 0 p 0 = Some (sqd p).
    Proof.
      replace (Z.to_nat k) with (length query) by lia. rewrite (sqdist_loop_ok p query 0 0) by (reflexivity || lia). reflexivity.
    Qed.

    Lemma sqdist_comp p : forall l i dim q, at_ l dim = Some q -> (comp p (i + dim) - q) ^ 2 <= sqdist_from point comp i l p.
    Proof.
      induction l as [|x l IH]; intros i dim q H; unfold at_ in H; destruct (Z.leb_spec 0 dim) as [Hd|Hd]; try discriminate.
      - destruct (Z.to_nat dim); discriminate.
      - cbn [sqdist_from]. destruct (Z.eq_dec dim 0) as [->|Hne].
        + cbn in H. replace (i + 0) with i by lia. injection H as ->. pose proof (sqdist_from_nonneg l (i + 1) p). lia.
        + pose proof (IH (i + 1) (dim - 1) q) as G. unfold at_ in G. replace (0 <=? dim - 1) with true in G by lia.
          replace (Z.to_nat dim) with (S (Z.to_nat (dim - 1))) in H by lia. cbn [nth_error] in H. specialize (G H).
          replace (i + 1 + (dim - 1)) with (i + dim) in G by lia. nia.
    Qed.

    (* the candidate after the points of the range from a to b have been considered *)
    Definition better (pts : list point) (a b : Z) (seg : list point) (sq : Z) (have : bool) (ix sq' ix' : Z) : Prop :=
      (have = true -> sq' <= sq) /\
      (forall q, In q seg -> sq' <= sqd q) /\
      ((have = true /\ sq' = sq /\ ix' = ix) \/
       (exists p, at_ pts ix' = Some p /\ a <= ix' < b /\ sq' = sqd p /\ (have = true -> sq' < sq))).

    Lemma find_seg pts : forall dim seg, kd point comp k dim seg ->
      forall pre post a b pending fuel sq have ix, pts = pre ++ seg ++ post -> seg <> [] ->
      a = Z.of_nat (length pre) -> b = a + Z.of_nat (length seg) -> 0 <= dim < k ->
      Z.of_nat (length seg) * 2 ^ Z.of_nat (length pending) < 2 ^ max_levels ->
      exists fuel' dim' a' b' sq' ix', (fuel <= fuel')%nat /\ better pts a b seg sq have ix sq' ix' /\
        loop (2 * length seg + fuel) true pts dim a b pending sq have ix = loop fuel' false pts dim' a' b' pending sq' true ix'.
    Proof.
      induction 1 as [dim|dim l p r Hbal Hl Hr Kl IHl Kr IHr]; intros pre post a b pending fuel sq have ix Hpts Hne Ha Hb Hd Hp;
        [contradiction|]. clear Hne.
      assert (Len : length (l ++ p :: r) = (length l + 1 + length r)%nat) by (rewrite app_length; cbn [length]; lia).
      rewrite Len in *. replace (2 * (length l + 1 + length r) + fuel)%nat with (S (2 * length l + 2 * length r + 1 + fuel)) by lia.
      cbn [find_loop]. replace (a <? b) with true by lia.
      assert (Hc : midpoint a b = a + Z.of_nat (length l)) by (rewrite Hb; now apply midpoint_ok).
      set (c := midpoint a b) in *.
      assert (Ec : at_ pts c = Some p).
      { rewrite Hpts. replace (pre ++ (l ++ p :: r) ++ post) with ((pre ++ l) ++ p :: r ++ post) by (rewrite <- !app_assoc; reflexivity).
        apply at_mid. rewrite app_length. lia. }
      rewrite Ec. cbn [obind]. rewrite sqdist_ok. cbn [obind].
      destruct (at_some query dim ltac:(lia)) as [qd Eq]. rewrite Eq. cbn [obind].
      set (upd := negb have || (sqd p <? sq)).
      set (sq1 := if upd then sqd p else sq). set (ix1 := if upd then c else ix).
      replace (if upd then true else have) with true by (unfold upd; destruct have; cbn [negb orb]; [destruct (_ <? _); reflexivity|reflexivity]).
      assert (B1 : better pts a b [p] sq have ix sq1 ix1).
      { unfold sq1, ix1, upd. split; [|split].
        - intros ->. cbn [negb orb]. destruct (Z.ltb_spec (sqd p) sq); lia.
        - intros q [<-|[]]. destruct have; cbn [negb orb]; [destruct (Z.ltb_spec (sqd p) sq); lia|lia].
        - destruct have; cbn [negb orb].
          + destruct (Z.ltb_spec (sqd p) sq); [right; exists p; repeat split; try assumption; lia|left; auto].
          + right. exists p. repeat split; try assumption; try lia. }
      clearbody upd sq1 ix1. destruct (next_dim_ok dim Hd) as [Nd Hd2].
      (* combination of two results *)
      assert (Join : forall seg1 seg2 a1 b1 sqa ixa sqb ixb, a <= a1 -> b1 <= b ->
        better pts a b seg1 sq have ix sqa ixa -> better pts a1 b1 seg2 sqa true ixa sqb ixb ->
        better pts a b (seg1 ++ seg2) sq have ix sqb ixb).
      { intros seg1 seg2 a1 b1 sqa ixa sqb ixb H1 H2 (X1 & X2 & X3) (Y1 & Y2 & Y3). specialize (Y1 eq_refl). split; [|split].
        - intros Ht. specialize (X1 Ht). lia.
        - intros q Hi. apply in_app_iff in Hi as [Hi|Hi]; [specialize (X2 q Hi); lia|now apply Y2].
        - destruct Y3 as [(_ & -> & ->)|(p' & P1 & P2 & P3 & P4)]; [exact X3|].
          right. exists p'. repeat split; try assumption; try lia. }
      assert (Skip : forall seg1 seg2 sqa ixa, better pts a b seg1 sq have ix sqa ixa -> (forall q, In q seg2 -> sqa <= sqd q) ->
        better pts a b (seg1 ++ seg2) sq have ix sqa ixa).
      { intros seg1 seg2 sqa ixa (X1 & X2 & X3) H2. split; [exact X1|]. split; [|exact X3].
        intros q Hi. apply in_app_iff in Hi as [Hi|Hi]; auto. }
      assert (Perm : forall s sqa ixa, better pts a b s sq have ix sqa ixa -> (forall q, In q (l ++ p :: r) -> In q s) ->
        better pts a b (l ++ p :: r) sq have ix sqa ixa).
      { intros s sqa ixa (X1 & X2 & X3) H2. split; [exact X1|]. split; [|exact X3]. intros q Hi. apply X2. now apply H2. }
      (* the far range, after the near one *)
      assert (Far : forall far fa fb fpre fpost f2 d2 a2 b2 sqa ixa near, far <> [] ->
        (forall pending fuel sq have ix, Z.of_nat (length far) * 2 ^ Z.of_nat (length pending) < 2 ^ max_levels ->
          exists fuel' dim' a' b' sq' ix', (fuel <= fuel')%nat /\ better pts fa fb far sq have ix sq' ix' /\
          loop (2 * length far + fuel) true pts (next_dim k dim) fa fb pending sq have ix = loop fuel' false pts dim' a' b' pending sq' true ix') ->
        pts = fpre ++ far ++ fpost -> (forall q, In q far -> (comp p dim - qd) ^ 2 <= (comp q dim - qd) ^ 2) ->
        (length far <= length l + 1 + length r)%nat -> a <= fa -> fb <= b -> (2 * length far + 1 + fuel <= f2)%nat ->
        better pts a b near sq have ix sqa ixa ->
        exists fuel' dim' a' b' sq' ix', (fuel <= fuel')%nat /\ better pts a b (near ++ far) sq have ix sq' ix' /\
          loop f2 false pts d2 a2 b2 (Transrange dim c fa fb :: pending) sqa true ixa = loop fuel' false pts dim' a' b' pending sq' true ix').
      { intros far fa fb fpre fpost f2 d2 a2 b2 sqa ixa near Hfne IH Hfar Hcut Hlen H1 H2 Hf Hnear.
        destruct f2 as [|f2]; [lia|]. cbn [find_loop t_parents_dim t_parents_midpoint t_begin t_end].
        rewrite Ec, Eq. cbn [obind]. destruct (Z.leb_spec sqa (square (comp p dim - qd))) as [Hs|Hs].
        - exists f2, dim, a2, b2, sqa, ixa. split; [lia|]. split; [|reflexivity]. apply Skip; [assumption|].
          intros q Hi. specialize (Hcut q Hi). pose proof (sqdist_comp q query 0 dim qd Eq) as Hd3. rewrite Z.add_0_l in Hd3.
          fold (sqd q) in Hd3. unfold square in Hs. lia.
        - destruct (IH pending (f2 - 2 * length far)%nat sqa true ixa) as (f' & d' & a' & b' & sq' & ix' & F & B & E).
          { assert (0 < 2 ^ Z.of_nat (length pending)) by (apply Z.pow_pos_nonneg; lia). nia. }
          exists f', d', a', b', sq', ix'. split; [lia|]. split; [now apply (Join near far fa fb sqa ixa)|].
          rewrite <- E. f_equal. lia. }
      destruct (Z.leb_spec qd (comp p dim)) as [Hside|Hside].
      - (* near is left *)
        destruct r as [|r0 r'].
        + (* no right range *)
          cbn [length] in *. assert (length l = 0%nat) by lia. destruct l; [|discriminate].
          replace (c + 1 <? b) with false by (cbn [length] in *; lia). cbn [obind]. replace (a <? c) with false by (cbn [length] in *; lia).
          do 6 eexists. split; [|split; [exact B1|reflexivity]]. lia.
        + set (r := r0 :: r') in *. assert (Hrl : (1 <= length r)%nat) by (cbn; lia).
          assert (Hrne : r <> []) by discriminate. clearbody r.
          replace (c + 1 <? b) with true by lia.
          rewrite (push_ok pending _ (Z.of_nat (length l + 1 + length r))) by (assumption || lia). cbn [obind].
          assert (IHr' : forall pending fuel sq have ix, Z.of_nat (length r) * 2 ^ Z.of_nat (length pending) < 2 ^ max_levels ->
            exists fuel' dim' a' b' sq' ix', (fuel <= fuel')%nat /\ better pts (c + 1) b r sq have ix sq' ix' /\
            loop (2 * length r + fuel) true pts (next_dim k dim) (c + 1) b pending sq have ix = loop fuel' false pts dim' a' b' pending sq' true ix').
          { intros pd fl s h i Hp'. rewrite Nd. apply (IHr (pre ++ l ++ [p]) post); try assumption.
            - rewrite Hpts, <- !app_assoc. reflexivity.
            - rewrite !app_length. cbn [length]. lia.
            - lia.
            - lia. }
          assert (Hcut : forall q, In q r -> (comp p dim - qd) ^ 2 <= (comp q dim - qd) ^ 2).
          { intros q Hi. specialize (Hr q Hi). nia. }
          assert (Hfar : pts = (pre ++ l ++ [p]) ++ r ++ post) by (rewrite Hpts, <- !app_assoc; reflexivity).
          destruct (Z.ltb_spec a c) as [Hac|Hac].
          * destruct (IHl pre (p :: r ++ post) a c (Transrange dim c (c + 1) b :: pending) (2 * length r + 1 + fuel)%nat sq1 true ix1)
              as (f2 & d2 & a2 & b2 & sq2 & ix2 & F2 & B2 & E2); try lia.
            { rewrite Hpts, <- !app_assoc. reflexivity. }
            { intros ->. cbn [length] in *. lia. }
            { cbn [length]. apply (level_bound (Z.of_nat (length l + 1 + length r))); try assumption; lia. }
            destruct (Far r (c + 1) b (pre ++ l ++ [p]) post f2 d2 a2 b2 sq2 ix2 ([p] ++ l)) as (f' & d' & a' & b' & sq' & ix' & F & B & E);
              try assumption; try lia.
            { apply (Join [p] l a c sq1 ix1); try assumption; lia. }
            exists f', d', a', b', sq', ix'. split; [exact F|]. split.
            { apply (Perm (([p] ++ l) ++ r)); [exact B|]. intros q Hi. rewrite !in_app_iff in *. cbn [In] in *. tauto. }
            rewrite <- E, <- E2, Nd. f_equal. lia.
          * destruct l; [|cbn [length] in *; lia].
            destruct (Far r (c + 1) b (pre ++ [] ++ [p]) post (2 * length (@nil point) + 2 * length r + 1 + fuel)%nat dim a b sq1 ix1 [p])
              as (f' & d' & a' & b' & sq' & ix' & F & B & E); try assumption; try lia.
            exists f', d', a', b', sq', ix'. split; [exact F|]. split; [exact B|exact E].
      - (* near is right *)
        assert (Hcut : forall q, In q l -> (comp p dim - qd) ^ 2 <= (comp q dim - qd) ^ 2).
        { intros q Hi. specialize (Hl q Hi). nia. }
        destruct r as [|r0 r'].
        + cbn [length] in *. assert (length l = 0%nat) by lia. destruct l; [|discriminate].
          replace (a <? c) with false by (cbn [length] in *; lia). cbn [obind]. replace (c + 1 <? b) with false by (cbn [length] in *; lia).
          do 6 eexists. split; [|split; [exact B1|reflexivity]]. lia.
        + set (r := r0 :: r') in *. assert (Hrl : (1 <= length r)%nat) by (cbn; lia).
          assert (Hrne : r <> []) by discriminate. clearbody r.
          replace (c + 1 <? b) with true by lia.
          assert (Near : forall pending' fl, Z.of_nat (length r) * 2 ^ Z.of_nat (length pending') < 2 ^ max_levels ->
            exists fuel' dim' a' b' sq' ix', (fl <= fuel')%nat /\ better pts (c + 1) b r sq1 true ix1 sq' ix' /\
            loop (2 * length r + fl) true pts (next_dim k dim) (c + 1) b pending' sq1 true ix1 = loop fuel' false pts dim' a' b' pending' sq' true ix').
          { intros pd fl Hp'. rewrite Nd. apply (IHr (pre ++ l ++ [p]) post); try assumption.
            - rewrite Hpts, <- !app_assoc. reflexivity.
            - rewrite !app_length. cbn [length]. lia.
            - lia.
            - lia. }
          destruct (Z.ltb_spec a c) as [Hac|Hac].
          * rewrite (push_ok pending _ (Z.of_nat (length l + 1 + length r))) by (assumption || lia). cbn [obind].
            destruct (Near (Transrange dim c a c :: pending) (2 * length l + 1 + fuel)%nat) as (f2 & d2 & a2 & b2 & sq2 & ix2 & F2 & B2 & E2).
            { cbn [length]. apply (level_bound (Z.of_nat (length l + 1 + length r))); try assumption; lia. }
            destruct (Far l a c pre (p :: r ++ post) f2 d2 a2 b2 sq2 ix2 ([p] ++ r)) as (f' & d' & a' & b' & sq' & ix' & F & B & E);
              try assumption; try lia.
            { intros ->. cbn [length] in *. lia. }
            { intros pd fl s h i Hp'. rewrite Nd. apply (IHl pre (p :: r ++ post)); try assumption; try lia.
              - rewrite Hpts, <- !app_assoc. reflexivity.
              - intros ->. cbn [length] in *. lia. }
            { rewrite Hpts, <- !app_assoc. reflexivity. }
            { apply (Join [p] r (c + 1) b sq1 ix1); try assumption; lia. }
            exists f', d', a', b', sq', ix'. split; [exact F|]. split.
            { apply (Perm (([p] ++ r) ++ l)); [exact B|]. intros q Hi. rewrite !in_app_iff in *. cbn [In] in *. tauto. }
            rewrite <- E, <- E2. f_equal. lia.
          * destruct l; [|cbn [length] in *; lia]. cbn [obind].
            destruct (Near pending (1 + fuel)%nat) as (f2 & d2 & a2 & b2 & sq2 & ix2 & F2 & B2 & E2).
            { assert (0 < 2 ^ Z.of_nat (length pending)) by (apply Z.pow_pos_nonneg; lia). nia. }
            exists f2, d2, a2, b2, sq2, ix2. split; [lia|]. split; [apply (Join [p] r (c + 1) b sq1 ix1); try assumption; lia|].
            rewrite <- E2. f_equal. cbn [length]. lia.
    Qed.

    Lemma find_ok pts max_dist : kd point comp k 0 pts -> Z.of_nat (length pts) < 2 ^ max_levels ->
      match kdtree_find point comp k max_levels query pts max_dist with
      | Some (Some (p, d)) =>
        In p pts /\ d = sqd p /\ (forall q, In q pts -> sqd p <= sqd q) /\
        (forall m, max_dist = Some m -> sqd p < m ^ 2)
      | Some None => forall q, In q pts -> exists m, max_dist = Some m /\ m ^ 2 <= sqd q
      | None => False
      end.
    Proof.
      intros Hkd Hl. unfold kdtree_find. destruct (Z.eqb_spec (Z.of_nat (length pts)) 0) as [H0|H0]; cbn [negb].
      - destruct pts; [intros q []|discriminate].
      - set (sq := match max_dist with Some d => square d | None => 0 end).
        set (have := match max_dist with Some _ => true | None => false end).
        destruct (find_seg pts 0 pts Hkd [] [] 0 (Z.of_nat (length pts)) [] 1 sq have (-1)) as (f & d & a & b & sq' & ix' & F & (X1 & X2 & X3) & E);
          try lia; try reflexivity.
        { now rewrite app_nil_r. }
        { intros ->. apply H0. reflexivity. }
        { cbn [length Z.of_nat]. lia. }
        rewrite E. destruct f as [|f]; [lia|]. cbn [find_loop obind].
        destruct X3 as [(Hh & -> & ->)|(p & P1 & P2 & P3 & P4)].
        + cbn [Z.eqb negb Pos.eqb]. intros q Hi. specialize (X2 q Hi). unfold have, sq in *. destruct max_dist as [m|]; [|discriminate].
          exists m. split; [reflexivity|]. unfold square in X2. lia.
        + replace (ix' =? -1) with false by lia. cbn [negb]. rewrite P1. cbn [obind].
          split; [now apply (at_in pts ix')|]. split; [lia|]. split; [intros q Hi; specialize (X2 q Hi); lia|].
          intros m ->. unfold have, sq, square in P4. specialize (P4 eq_refl). lia.
    Qed.
  End Find.
End Proofs.
