(* C31: LiteralHashMap finds exactly the given associations. *)
From Coq Require Import List Arith Lia Bool.
From Verif Require Import ArrLib HashMapModel.
Import ListNotations.

(* specification: the value of the first occurrence of the key in the list *)
Fixpoint first_assoc {K V} (keq : K -> K -> bool) (key : K) (l : list (K * V)) : option V :=
  match l with
  | [] => None
  | (k, v) :: l => if keq k key then Some v else first_assoc keq key l
  end.

Section Proofs.
Context {K V X : Type} (kd : K) (vd : V) (hf : K -> nat) (M : nat) (sel : X -> K * V).

Definition inbucket (i : nat) (kv : K * V) : bool := Nat.eqb (lhm_hash hf M (fst kv)) i.
Definition part (i : nat) (l : list X) : list (K * V) := filter (inbucket i) (map sel l).

Lemma scan_spec i l : forall pre post,
  length (part i l) <= length post ->
  lhm_scan hf M i sel l (pre ++ post) (length pre) =
  Some (pre ++ part i l ++ skipn (length (part i l)) post, length pre + length (part i l)).
Proof.
  unfold part. induction l as [|a l IH]; intros pre post Hl; cbn [lhm_scan map filter].
  - cbn [length skipn app]. now rewrite Nat.add_0_r.
  - cbn [map filter] in Hl.
    assert (Hi : inbucket i (sel a) = (lhm_hash hf M (fst (sel a)) =? i)) by reflexivity.
    rewrite Hi in *. clear Hi.
    destruct (lhm_hash hf M (fst (sel a)) =? i) eqn:E.
    + destruct post as [|p post]; [cbn in Hl; lia|].
      rewrite set_nth_app. cbn [obind].
      replace (pre ++ sel a :: post) with ((pre ++ [sel a]) ++ post) by now rewrite <- app_assoc.
      replace (S (length pre)) with (length (pre ++ [sel a])) by (rewrite app_length; cbn; lia).
      cbn [length] in Hl. rewrite IH by lia. rewrite app_length. cbn [length skipn].
      f_equal. f_equal; [|lia]. rewrite <- app_assoc. reflexivity.
    + apply IH. assumption.
Qed.

Definition parts (n i : nat) (l : list X) : list (K * V) := flat_map (fun j => part j l) (seq i n).

Lemma init_loop_spec l : forall n i pre post bpre bpost,
  length (parts n i l) <= length post -> length bpre = i -> length bpost = n ->
  exists bs,
  lhm_init_loop hf M sel l n i (pre ++ post) (bpre ++ bpost) (length pre) =
  Some (pre ++ parts n i l ++ skipn (length (parts n i l)) post, bpre ++ bs,
        length pre + length (parts n i l)) /\ length bs = n /\
  forall j, j < n -> nth_error bs j = Some (length pre + length (parts j i l)).
Proof.
  induction n as [|n IH]; intros i pre post bpre bpost Hl Hb1 Hb2; cbn [lhm_init_loop].
  - exists []. destruct bpost; [|discriminate]. cbn [parts seq flat_map length app skipn].
    rewrite Nat.add_0_r. split; [reflexivity|]. split; [reflexivity|]. intros; lia.
  - destruct bpost as [|b0 bpost]; [discriminate|].
    subst i. rewrite set_nth_app. cbn [obind].
    unfold parts in Hl |- *. cbn [seq flat_map] in *. rewrite app_length in Hl.
    rewrite scan_spec by lia. cbn [obind].
    set (p0 := part (length bpre) l) in *.
    replace (pre ++ p0 ++ skipn (length p0) post) with ((pre ++ p0) ++ skipn (length p0) post)
      by now rewrite <- app_assoc.
    replace (length pre + length p0) with (length (pre ++ p0)) by (rewrite app_length; lia).
    replace (bpre ++ length pre :: bpost) with ((bpre ++ [length pre]) ++ bpost) by now rewrite <- app_assoc.
    edestruct (IH (S (length bpre)) (pre ++ p0) (skipn (length p0) post) (bpre ++ [length pre]) bpost)
      as (bs & E & L & Hn).
    { rewrite skipn_length. unfold parts. lia. }
    { rewrite app_length; cbn; lia. }
    { now inversion Hb2. }
    rewrite E. exists (length pre :: bs). split; [|split].
    + f_equal. f_equal; [f_equal|].
      * rewrite <- !app_assoc. f_equal. f_equal. unfold parts. rewrite app_length.
        f_equal. rewrite (Nat.add_comm (length p0)), <- (Nat.add_comm (length p0)).
        clear. generalize (length p0) as a, (length (flat_map (fun j => part j l) (seq (S (length bpre)) n))) as b.
        intros a b. revert post. induction a as [|a IHa]; intros post; [reflexivity|].
        destruct post; [now rewrite !skipn_nil|]. cbn. apply IHa.
      * now rewrite <- app_assoc.
      * unfold parts. rewrite !app_length. lia.
    + cbn. now rewrite L.
    + intros [|j] Hj; cbn [nth_error].
      * cbn. f_equal. lia.
      * rewrite Hn by lia. unfold parts. cbn [seq flat_map]. rewrite !app_length. f_equal. fold p0. lia.
Qed.

Hypothesis HM : 0 < M.

Lemma lhm_hash_lt k : lhm_hash hf M k < M.
Proof. apply Nat.mod_upper_bound. lia. Qed.

Lemma count_part (l : list X) : forall n i,
  length (parts n i l) =
  length (filter (fun x => (i <=? lhm_hash hf M (fst (sel x))) && (lhm_hash hf M (fst (sel x)) <? i + n)) l).
Proof.
  intros n i. induction l as [|a l IH].
  - unfold parts, part. cbn. induction (seq i n); auto.
  - assert (E : length (parts n i (a :: l)) =
      (if (i <=? lhm_hash hf M (fst (sel a))) && (lhm_hash hf M (fst (sel a)) <? i + n) then 1 else 0)
      + length (parts n i l)).
    { clear IH. set (h := lhm_hash hf M (fst (sel a))). unfold parts.
      revert i. induction n as [|n IHn]; intros i.
      - replace (i + 0) with i by lia. cbn [seq flat_map length].
        destruct (Nat.leb_spec i h), (Nat.ltb_spec h i); cbn [andb]; lia.
      - cbn [seq flat_map]. rewrite !app_length, IHn. unfold part at 1. cbn [map filter].
        unfold inbucket at 1. fold h. fold (part i l).
        destruct (Nat.eqb_spec h i).
        + cbn [length]. 
          destruct (Nat.leb_spec i h), (Nat.leb_spec (S i) h), (Nat.ltb_spec h (i + S n)), (Nat.ltb_spec h (S i + n));
            cbn [andb]; unfold part, inbucket; lia.
        + destruct (Nat.leb_spec i h), (Nat.leb_spec (S i) h), (Nat.ltb_spec h (i + S n)), (Nat.ltb_spec h (S i + n));
            cbn [andb]; unfold part, inbucket; lia. }
    rewrite E, IH. cbn [filter].
    destruct ((i <=? _) && _); cbn [length]; lia.
Qed.

Lemma parts_total l : length (parts M 0 l) = length l.
Proof.
  rewrite count_part. induction l as [|a l IH]; [reflexivity|]. cbn [filter].
  pose proof (lhm_hash_lt (fst (sel a))).
  replace (0 + M) with M in * by lia.
  destruct (Nat.ltb_spec (lhm_hash hf M (fst (sel a))) M); [|lia]. cbn [Nat.leb andb length].
  f_equal. apply IH.
Qed.

Lemma make_spec l : exists m, lhm_make kd vd hf M sel l = Some m /\
  lentries m = parts M 0 l /\ length (lbuckets m) = M /\
  forall j, j < M -> nth_error (lbuckets m) j = Some (length (parts j 0 l)).
Proof.
  unfold lhm_make.
  destruct (init_loop_spec l M 0 [] (repeat (kd, vd) (length l)) [] (repeat 0 M)) as (bs & E & L & Hn).
  { rewrite parts_total, repeat_length. lia. }
  { reflexivity. } { apply repeat_length. }
  cbn [app length] in E. rewrite E. cbn [obind]. rewrite parts_total. cbn [Nat.add].
  rewrite Nat.eqb_refl. eexists. split; [reflexivity|]. cbn [lentries lbuckets].
  split; [|split; [assumption|assumption]].
  replace (skipn (length l) (repeat (kd, vd) (length l))) with (@nil (K * V)); [apply app_nil_r|].
  symmetry. apply skipn_all2. rewrite repeat_length. lia.
Qed.

Context (keq : K -> K -> bool) (keq_spec : forall a b, keq a b = true <-> a = b).

Lemma find_loop_spec key (old : V) es : forall (l pre post : list (K * V)), es = pre ++ l ++ post ->
  lhm_find_loop keq key es (length l) (length pre) old =
  Some (match first_assoc keq key l with Some v => (true, v) | None => (false, old) end).
Proof.
  induction l as [|[k v] l IH]; intros pre post E; cbn [length lhm_find_loop first_assoc]; [reflexivity|].
  rewrite E. rewrite nth_error_app2, Nat.sub_diag by lia. cbn [app nth_error obind fst snd].
  destruct (keq k key); [reflexivity|]. cbn [app] in E. rewrite <- E.
  replace (S (length pre)) with (length (pre ++ [(k, v)])) by (rewrite app_length; cbn; lia).
  apply (IH _ post). rewrite E, <- app_assoc. reflexivity.
Qed.

Lemma first_assoc_part key l :
  first_assoc keq key (part (lhm_hash hf M key) l) = first_assoc keq key (map sel l).
Proof.
  unfold part. induction (map sel l) as [|[k v] r IH]; [reflexivity|].
  cbn [filter]. unfold inbucket at 1. cbn [fst first_assoc].
  destruct (keq k key) eqn:E.
  - apply keq_spec in E. subst k. rewrite Nat.eqb_refl. cbn [first_assoc].
    rewrite (proj2 (keq_spec key key) eq_refl). reflexivity.
  - destruct (_ =? _); [|assumption]. cbn [first_assoc]. now rewrite E.
Qed.

Lemma find_spec l m key old : lhm_make kd vd hf M sel l = Some m ->
  lhm_find keq hf m key old =
  Some (match first_assoc keq key (map sel l) with Some v => (true, v) | None => (false, old) end).
Proof.
  intros Hm. destruct (make_spec l) as (m' & E & He & Hlb & Hb). rewrite E in Hm. inversion Hm; subst m'.
  unfold lhm_find. rewrite Hlb. pose proof (lhm_hash_lt key) as Hlt.
  set (bi := lhm_hash hf M key) in *.
  rewrite Hb by assumption. cbn [obind].
  assert (Hend : (if M - bi =? 1 then Some (length (lentries m)) else nth_error (lbuckets m) (S bi))
                 = Some (length (parts bi 0 l) + length (part bi l))).
  { assert (Hs : length (parts (S bi) 0 l) = length (parts bi 0 l) + length (part bi l)).
    { unfold parts. rewrite seq_S, flat_map_app, app_length. cbn. now rewrite app_nil_r. }
    destruct (Nat.eqb_spec (M - bi) 1).
    - rewrite He, <- Hs. do 3 f_equal. lia.
    - rewrite Hb by lia. now rewrite Hs. }
  rewrite Hend. cbn [obind].
  replace (length (parts bi 0 l) + length (part bi l) - length (parts bi 0 l)) with (length (part bi l)) by lia.
  assert (Hsplit : lentries m = parts bi 0 l ++ part bi l ++ parts (M - S bi) (S bi) l).
  { rewrite He. unfold parts. replace M with (bi + S (M - S bi)) at 1 by lia.
    rewrite seq_app, flat_map_app. reflexivity. }
  rewrite (find_loop_spec key old _ _ _ _ Hsplit). f_equal.
  unfold bi. now rewrite first_assoc_part.
Qed.
End Proofs.

(* For every hash function, bucket count and association array: construction
   succeeds (its assertion holds, no out-of-bounds write) and find yields the
   first occurrence, or leaves the out argument unchanged. *)
Theorem literal_hash_map_find_exact :
  forall (K V : Type) (kd : K) (vd : V) (keq : K -> K -> bool) (hf : K -> nat) (M : nat)
         (assocs : list (K * V)),
  (forall a b, keq a b = true <-> a = b) -> 0 < M \/ assocs <> [] ->
  exists m, make_literal_hash_map kd vd hf M assocs = Some m /\
  forall key old, lhm_find keq hf m key old =
    Some (match first_assoc keq key assocs with Some v => (true, v) | None => (false, old) end).
Proof.
  intros K V kd vd keq hf M assocs Hk HM. unfold make_literal_hash_map.
  assert (Hnb : 0 < num_buckets M (length assocs)).
  { unfold num_buckets. destruct (Nat.ltb_spec 0 M); [assumption|].
    destruct HM as [|Hne]; [lia|]. destruct assocs; [congruence|cbn; lia]. }
  destruct (make_spec kd vd hf _ (fun a : K * V => (fst a, snd a)) Hnb assocs) as (m & E & _).
  exists m. split; [assumption|]. intros key old.
  rewrite (find_spec kd vd hf _ _ Hnb keq Hk assocs m key old E).
  replace (map (fun a : K * V => (fst a, snd a)) assocs) with assocs; [reflexivity|].
  symmetry. rewrite <- (map_id assocs) at 2. apply map_ext. now intros [].
Qed.

(* the reverse map: keys and values swapped *)
Theorem rev_literal_hash_map_find_exact :
  forall (K V : Type) (kd : K) (vd : V) (keq : K -> K -> bool) (hf : K -> nat) (M : nat)
         (assocs : list (V * K)),
  (forall a b, keq a b = true <-> a = b) -> 0 < M \/ assocs <> [] ->
  exists m, make_rev_literal_hash_map kd vd hf M assocs = Some m /\
  forall key old, lhm_find keq hf m key old =
    Some (match first_assoc keq key (map (fun a => (snd a, fst a)) assocs) with
          | Some v => (true, v) | None => (false, old) end).
Proof.
  intros K V kd vd keq hf M assocs Hk HM. unfold make_rev_literal_hash_map.
  assert (Hnb : 0 < num_buckets M (length assocs)).
  { unfold num_buckets. destruct (Nat.ltb_spec 0 M); [assumption|].
    destruct HM as [|Hne]; [lia|]. destruct assocs; [congruence|cbn; lia]. }
  destruct (make_spec kd vd hf _ (fun a : V * K => (snd a, fst a)) Hnb assocs) as (m & E & _).
  exists m. split; [assumption|]. intros key old.
  now rewrite (find_spec kd vd hf _ _ Hnb keq Hk assocs m key old E).
Qed.

Lemma first_assoc_in {K V} (keq : K -> K -> bool) (Hk : forall a b, keq a b = true <-> a = b)
  (l : list (K * V)) key : first_assoc keq key l <> None <-> In key (map fst l).
Proof.
  induction l as [|[k v] l IH]; cbn; [tauto|].
  destruct (keq k key) eqn:Ek.
  - apply Hk in Ek. split; [auto|discriminate].
  - rewrite IH. split; [auto|]. intros [->|]; [|assumption].
    rewrite (proj2 (Hk key key) eq_refl) in Ek. discriminate.
Qed.

(* membership form: a key is found exactly when it occurs in the array *)
Theorem literal_hash_map_found_iff :
  forall (K V : Type) (kd : K) (vd : V) (keq : K -> K -> bool) (hf : K -> nat) (M : nat)
         (assocs : list (K * V)) m key old,
  (forall a b, keq a b = true <-> a = b) -> 0 < M \/ assocs <> [] ->
  make_literal_hash_map kd vd hf M assocs = Some m ->
  ((exists v, lhm_find keq hf m key old = Some (true, v)) <-> In key (map fst assocs)).
Proof.
  intros K V kd vd keq hf M assocs m key old Hk HM Hm.
  destruct (literal_hash_map_find_exact K V kd vd keq hf M assocs Hk HM) as (m' & E & Hf).
  rewrite E in Hm. inversion Hm; subst m'. rewrite Hf.
  rewrite <- (first_assoc_in keq Hk assocs key).
  destruct (first_assoc keq key assocs); split; intros; try congruence; eauto.
  destruct H as [v H]. discriminate.
Qed.

Example literal_hash_map_ex :
  let assocs := [(10, 1); (3, 2); (13, 3); (3, 4); (7, 5)] in
  match make_literal_hash_map 0 0 (fun k => k * k) 4 assocs with
  | Some m =>
    lhm_find Nat.eqb (fun k => k * k) m 3 99 = Some (true, 2) /\
    lhm_find Nat.eqb (fun k => k * k) m 13 99 = Some (true, 3) /\
    lhm_find Nat.eqb (fun k => k * k) m 5 99 = Some (false, 99)
  | None => False
  end.
Proof. vm_compute. auto. Qed.

Print Assumptions literal_hash_map_find_exact.
Print Assumptions rev_literal_hash_map_find_exact.
Print Assumptions literal_hash_map_found_iff.
