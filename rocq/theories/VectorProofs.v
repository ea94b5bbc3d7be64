(* Lemmas about the model of Vector. *)
From Coq Require Import ZArith List Bool Arith Lia ZifyBool.
From Verif Require Import CInt IntModel IntProofs BufferModel BufferProofs ArrLib UninitModel UninitProofs VectorModel.
Import ListNotations.
Open Scope nat_scope.

Section Proofs.
Context {T : Type}.
Context (W : Z) (sizeof_T : Z).
Context (HW : (1 <= W)%Z) (HS : (0 <= sizeof_T <= size_max W)%Z).
Notation free n := (repeat (@None T) n).
Notation live xs := (map (@Some T) xs).

Definition repr (v : vec T) (xs : list T) : Prop :=
  v_size v = length xs /\ length xs <= v_capacity v <= length (v_mem v) /\
  (Z.of_nat (v_capacity v) <= size_max W)%Z /\
  v_mem v = live xs ++ free (length (v_mem v) - length xs).

(* n elements can be made room for without overflowing a size *)
Definition roomy (n : nat) : Prop := (2 * Z.of_nat n * Z.max 1 sizeof_T <= size_max W)%Z.

Lemma t_size_ok : ity_ok (t_size W).
Proof. unfold t_size, ity_ok. cbn. lia. Qed.

Lemma in_range_size x : (0 <= x <= size_max W)%Z <-> in_range (t_size W) x.
Proof. unfold in_range, t_size, imin, imax, size_max, nvb. cbn. lia. Qed.

Lemma all_free_free n : all_free (free n) = true.
Proof. induction n; [reflexivity|]. cbn. exact IHn. Qed.

Lemma realloc_ok v xs n : repr v xs -> length xs <= n ->
  (Z.of_nat n * sizeof_T <= size_max W)%Z -> (Z.of_nat n <= size_max W)%Z ->
  exists v', realloc W sizeof_T v n = Done v' /\ repr v' xs /\ v_capacity v' = n /\ v_owned v' = true.
Proof.
  intros (H1 & H2 & H3 & H4) Hn Hb Hs. unfold realloc. rewrite H1.
  replace (length xs <=? n) with true by lia. cbn [negb].
  rewrite try_int_mul_spec; [|apply t_size_ok..|apply -> in_range_size; lia|apply -> in_range_size; lia].
  rewrite add_res_true by (apply -> in_range_size; nia). cbn [obnd fst negb].
  rewrite H4. replace (repeat None n) with ([] ++ free (length xs) ++ free (n - length xs))
    by (cbn [app]; rewrite <- repeat_app; f_equal; lia).
  change (live xs ++ ?f) with ([] ++ live xs ++ f). rewrite move_mid by reflexivity.
  cbn [obnd fst snd app]. rewrite <- repeat_app, all_free_free.
  eexists. split; [reflexivity|]. unfold repr. cbn [v_size v_capacity v_mem v_owned].
  rewrite app_length, map_length, repeat_length.
  split; [|now split]. split; [reflexivity|]. split; [lia|]. split; [lia|]. do 2 f_equal. lia.
Qed.

Lemma realloc_cases v xs n : repr v xs -> length xs <= n -> (Z.of_nat n <= size_max W)%Z ->
  (exists v', realloc W sizeof_T v n = Done v' /\ repr v' xs /\ v_capacity v' = n) \/
  (realloc W sizeof_T v n = Throw v /\ (Z.of_nat n * sizeof_T > size_max W)%Z).
Proof.
  intros H Hn Hs. destruct (Z_le_gt_dec (Z.of_nat n * sizeof_T) (size_max W)) as [Hb|Hb].
  - left. destruct (realloc_ok v xs n H Hn Hb Hs) as (v' & ? & ? & ? & ?). eauto.
  - right. split; [|exact Hb]. destruct H as (H1 & _). unfold realloc. rewrite H1.
    replace (length xs <=? n) with true by lia. cbn [negb].
    rewrite try_int_mul_spec; [|apply t_size_ok..|apply -> in_range_size; lia|apply -> in_range_size; lia].
    rewrite add_res_false; [reflexivity|]. rewrite <- in_range_size. lia.
Qed.

Lemma do_reserve_extra_cases v xs n : repr v xs -> (Z.of_nat n <= size_max W)%Z ->
  (exists v', do_reserve_extra W sizeof_T v n = Done v' /\ repr v' xs /\ length xs + n <= v_capacity v') \/
  (do_reserve_extra W sizeof_T v n = Throw v /\ (v_capacity v < length xs + n -> ~ roomy (length xs + n))).
Proof.
  intros H Hr. pose proof H as (H1 & H2 & H3 & H4). unfold do_reserve_extra, roomy.
  rewrite H1.
  rewrite try_int_add_spec; [|apply t_size_ok..|apply -> in_range_size; lia|apply -> in_range_size; lia].
  destruct (Z_le_gt_dec (Z.of_nat (length xs) + Z.of_nat n) (size_max W)) as [Hf|Hf].
  2:{ right. rewrite add_res_false by (rewrite <- in_range_size; lia). split; [reflexivity|].
      intros _ Hq. assert (2 * Z.of_nat (length xs + n) <= 2 * Z.of_nat (length xs + n) * Z.max 1 sizeof_T)%Z by nia.
      lia. }
  rewrite add_res_true by (apply -> in_range_size; lia). cbn [obnd fst snd]. unfold do_reserve.
  destruct (suggest_spec W (Z.of_nat (v_capacity v)) (Z.of_nat (length xs) + Z.of_nat n) (size_max W))
    as (m & Em & Hm & _ & _); [lia..|].
  assert (Hsug : (Z.of_nat (v_capacity v) < Z.of_nat (length xs) + Z.of_nat n ->
                  m <= 2 * (Z.of_nat (length xs) + Z.of_nat n) \/ size_max W < 2 * (Z.of_nat (length xs) + Z.of_nat n))%Z).
  { intros Hlt. destruct (Z_lt_le_dec (size_max W) (2 * (Z.of_nat (length xs) + Z.of_nat n))); [lia|]. left.
    unfold suggest_new_buffer_size in Em.
    pose proof (Z.div_le_upper_bound (Z.of_nat (v_capacity v)) 2 (Z.of_nat (v_capacity v))).
    assert (0 <= Z.of_nat (v_capacity v) / 2 <= Z.of_nat (v_capacity v))%Z
      by (split; [apply Z.div_pos; lia|apply Z.div_le_upper_bound; lia]).
    destruct (negb _); [discriminate|]. destruct (negb _); [discriminate|].
    destruct (_ <=? Z.of_nat (v_capacity v))%Z; [inversion Em; lia|].
    destruct (Z.leb_spec (Z.of_nat (v_capacity v) / 2) (usize W (size_max W - Z.of_nat (v_capacity v)))) as [Hq|Hq].
    - rewrite usize_id in Em by lia. destruct (_ <=? _)%Z; inversion Em; lia.
    - rewrite usize_id in Hq by lia. lia. }
  rewrite Em. cbn [obnd].
  destruct (realloc_cases v xs (Z.to_nat m) H) as [(v' & Hv & Hrep & Hcap)|[Hv Hover]]; [lia|lia| |].
  - left. exists v'. split; [exact Hv|]. split; [exact Hrep|]. lia.
  - right. split; [exact Hv|]. intros Hlt Hq.
    destruct (Hsug ltac:(lia)) as [Hs|Hs]; nia.
Qed.

Lemma reserve_extra_cases v xs n : repr v xs -> (Z.of_nat n <= size_max W)%Z ->
  (exists v', reserve_extra W sizeof_T v n = Done v' /\ repr v' xs /\ length xs + n <= v_capacity v' /\
     (length xs + n <= v_capacity v -> v' = v)) \/
  (reserve_extra W sizeof_T v n = Throw v /\ ~ roomy (length xs + n)).
Proof.
  intros H Hn. pose proof H as (H1 & H2 & H3 & H4). unfold reserve_extra. rewrite H1.
  replace (length xs <=? v_capacity v) with true by lia. cbn [negb].
  destruct (Nat.leb_spec n (v_capacity v - length xs)).
  - left. exists v. split; [reflexivity|]. split; [exact H|]. split; [lia|reflexivity].
  - destruct (do_reserve_extra_cases v xs n H Hn) as [(v' & ? & ? & ?)|[? Hq]].
    + left. exists v'. repeat (split; [assumption|]). lia.
    + right. split; [assumption|]. apply Hq. lia.
Qed.

Lemma reserve_cases v xs n : repr v xs -> (Z.of_nat n <= size_max W)%Z ->
  (exists v', reserve W sizeof_T v n = Done v' /\ repr v' xs /\ n <= v_capacity v' /\
     (n <= v_capacity v -> v' = v)) \/
  (reserve W sizeof_T v n = Throw v /\ ~ roomy (length xs + n)).
Proof.
  intros H Hn. unfold reserve. destruct (Nat.leb_spec n (v_capacity v)).
  - left. exists v. split; [reflexivity|]. split; [exact H|]. split; [lia|reflexivity].
  - destruct (do_reserve_extra_cases v xs n H Hn) as [(v' & ? & ? & ?)|[? Hq]].
    + left. exists v'. split; [assumption|]. split; [assumption|]. lia.
    + right. split; [assumption|]. apply Hq. lia.
Qed.

(* room for n more elements makes the memory split as needed *)
Lemma mem_split v xs n : repr v xs -> length xs + n <= v_capacity v ->
  exists k, v_mem v = live xs ++ free n ++ free k /\ length (v_mem v) = length xs + n + k.
Proof.
  intros (H1 & H2 & H3 & H4) Hn. exists (length (v_mem v) - length xs - n). split; [|lia].
  rewrite H4 at 1. f_equal. rewrite <- repeat_app. f_equal. lia.
Qed.

Lemma mem_split0 v xs : repr v xs ->
  exists k, v_mem v = live xs ++ free k /\ length (v_mem v) = length xs + k.
Proof. intros (H1 & H2 & H3 & H4). exists (length (v_mem v) - length xs). split; [exact H4|lia]. Qed.

Lemma repr_with v xs ys m k : repr v xs -> length ys <= v_capacity v ->
  m = live ys ++ free k -> length (v_mem v) = length ys + k ->
  repr (with_mem v m (length ys)) ys.
Proof.
  intros (H1 & H2 & H3 & H4) Hn -> Hk. unfold repr, with_mem. cbn [v_size v_capacity v_mem].
  rewrite app_length, map_length, repeat_length.
  split; [reflexivity|]. split; [lia|]. split; [lia|]. do 2 f_equal. lia.
Qed.

Lemma repr_same v xs m k : repr v xs -> m = live xs ++ free k -> length (v_mem v) = length xs + k ->
  repr (with_mem v m (v_size v)) xs.
Proof.
  intros H E Hk. pose proof H as (H1 & H2 & _). rewrite H1. apply (repr_with v xs xs m k H); [lia|exact E|exact Hk].
Qed.

Ltac fin_repr :=
  match goal with
  | |- repr (with_mem ?v _ (v_size ?v)) _ => eapply repr_same
  | |- _ => eapply repr_with
  end;
  [eassumption|..]; try (rewrite ?app_length; cbn [length]; lia);
  [rewrite ?map_app, <- ?app_assoc, <- ?repeat_app; cbn [map app]; reflexivity
  |rewrite ?app_length in *; cbn [length] in *; lia].

Lemma emplace_back_cases v xs x : repr v xs -> 
  (exists v' y, emplace_back W sizeof_T v x = Done v' /\ x = Some y /\ repr v' (xs ++ [y]) /\
     (length xs + 1 <= v_capacity v -> v_capacity v' = v_capacity v /\ v_owned v' = v_owned v)) \/
  (exists v', emplace_back W sizeof_T v x = Throw v' /\ repr v' xs /\
     (x = None \/ ~ roomy (length xs + 1))).
Proof.
  intros H. unfold emplace_back.
  assert (1 <= size_max W)%Z.
  { unfold size_max. assert (2 ^ 1 <= 2 ^ W)%Z by (apply Z.pow_le_mono_r; lia). lia. }
  destruct (reserve_extra_cases v xs 1 H ltac:(lia)) as [(v1 & -> & Hr & Hc & Hs)|[-> Hq]].
  2:{ right. exists v. cbn [vbind]. auto. }
  cbn [vbind]. destruct x as [x|]; [left|right; exists v1; auto].
  pose proof Hr as (H1 & H2 & H3 & H4). destruct (mem_split v1 xs 1 Hr Hc) as (k & Hm & Hk).
  rewrite Hm. rewrite H1. cbn [repeat app]. rewrite create_mid by now rewrite map_length.
  cbn [obnd]. eexists _, x. split; [reflexivity|]. split; [reflexivity|].
  split; [|intros Hle; rewrite (Hs Hle); split; reflexivity].
  replace (length xs + 1) with (length (xs ++ [x])) by (rewrite len_snoc; lia).
  fin_repr.
Qed.

Lemma pop_back_ok v xs x : repr v (xs ++ [x]) ->
  exists v', pop_back v = Done v' /\ repr v' xs.
Proof.
  intros H. pose proof H as (H1 & H2 & H3 & H4). unfold pop_back. rewrite H1.
  rewrite len_snoc in *. cbn [Nat.ltb Nat.leb negb]. replace (S (length xs) - 1) with (length xs) by lia.
  destruct (mem_split0 _ _ H) as (k & Hm & Hk). rewrite Hm. rewrite map_app, <- app_assoc.
  rewrite (destroy_mid [x] (live xs)) by (rewrite ?map_length; reflexivity). cbn [obnd].
  eexists. split; [reflexivity|]. fin_repr.
Qed.

Lemma append_fill_cases v xs n make : repr v xs -> (Z.of_nat n <= size_max W)%Z ->
  (exists v' ys, append_fill W sizeof_T v n make = Done v' /\ seq_all (map make (seq 0 n)) = Some ys /\
     repr v' (xs ++ ys) /\
     (length xs + n <= v_capacity v -> v_capacity v' = v_capacity v /\ v_owned v' = v_owned v)) \/
  (exists v', append_fill W sizeof_T v n make = Throw v' /\ repr v' xs /\
     (seq_all (map make (seq 0 n)) = None \/ ~ roomy (length xs + n))).
Proof.
  intros H Hn. unfold append_fill.
  destruct (reserve_extra_cases v xs n H Hn) as [(v1 & -> & Hr & Hc & Hs)|[-> Hq]].
  2:{ right. exists v. cbn [vbind]. auto. }
  cbn [vbind]. pose proof Hr as (H1 & H2 & H3 & H4). destruct (mem_split v1 xs n Hr Hc) as (k & Hm & Hk).
  rewrite Hm. rewrite H1. rewrite fill_mid by now rewrite map_length.
  destruct (seq_all (map make (seq 0 n))) as [ys|] eqn:E; cbn [filled].
  - left. eexists _, ys. split; [reflexivity|]. split; [reflexivity|].
    assert (Hl : length ys = n) by (apply seq_all_length in E; rewrite map_length, seq_length in E; lia).
    split; [|intros Hle; rewrite (Hs Hle); split; reflexivity].
    replace (length xs + n) with (length (xs ++ ys)) by (rewrite app_length; lia).
    fin_repr.
  - right. eexists. split; [reflexivity|]. split; [|now left].
    fin_repr.
Qed.

Lemma append_copy_cases v xs src : repr v xs -> (Z.of_nat (length src) <= size_max W)%Z ->
  (exists v' ys, append_copy W sizeof_T v src = Done v' /\ seq_all src = Some ys /\
     repr v' (xs ++ ys) /\
     (length xs + length src <= v_capacity v -> v_capacity v' = v_capacity v /\ v_owned v' = v_owned v)) \/
  (exists v', append_copy W sizeof_T v src = Throw v' /\ repr v' xs /\
     (seq_all src = None \/ ~ roomy (length xs + length src))).
Proof.
  intros H Hn. unfold append_copy.
  destruct (reserve_extra_cases v xs (length src) H Hn) as [(v1 & -> & Hr & Hc & Hs)|[-> Hq]].
  2:{ right. exists v. cbn [vbind]. auto. }
  cbn [vbind]. pose proof Hr as (H1 & H2 & H3 & H4). destruct (mem_split v1 xs _ Hr Hc) as (k & Hm & Hk).
  rewrite Hm. rewrite H1. rewrite copy_mid by now rewrite map_length.
  destruct (seq_all src) as [ys|] eqn:E; cbn [filled].
  - left. eexists _, ys. split; [reflexivity|]. split; [reflexivity|].
    assert (Hl : length ys = length src) by (apply seq_all_length in E; lia).
    split; [|intros Hle; rewrite (Hs Hle); split; reflexivity].
    replace (length xs + length src) with (length (xs ++ ys)) by (rewrite app_length; lia).
    fin_repr.
  - right. eexists. split; [reflexivity|]. split; [|now left].
    fin_repr.
Qed.

Lemma append_input_cases src : forall v xs, repr v xs ->
  (exists v' ys, append_input W sizeof_T v src = Done v' /\ seq_all src = Some ys /\ repr v' (xs ++ ys)) \/
  (exists v' ys zs, append_input W sizeof_T v src = Throw v' /\ src = live ys ++ zs /\ repr v' (xs ++ ys) /\
     (seq_all src = None \/ ~ roomy (length xs + length src))).
Proof.
  induction src as [|x src IH]; intros v xs H; cbn [append_input].
  - left. exists v, []. rewrite app_nil_r. auto.
  - destruct (emplace_back_cases v xs x H) as [(v1 & y & -> & -> & Hr & _)|(v1 & -> & Hr & Hq)]; cbn [vbind].
    + cbn [seq_all fold_right]. fold (seq_all src).
      destruct (IH v1 _ Hr) as [(v' & ys & -> & -> & Hr')|(v' & ys & zs & -> & -> & Hr' & Hq)].
      * left. exists v', (y :: ys). rewrite <- app_assoc in Hr'. auto.
      * right. exists v', (y :: ys), zs. rewrite <- app_assoc in Hr'.
        split; [reflexivity|]. split; [reflexivity|]. split; [exact Hr'|].
        destruct Hq as [Hq|Hq]; [left; now rewrite Hq|right].
        rewrite len_snoc in Hq. cbn [length]. now rewrite Nat.add_succ_r.
    + right. exists v1, [], (x :: src). rewrite app_nil_r. split; [reflexivity|]. split; [reflexivity|].
      split; [exact Hr|]. destruct Hq as [->|Hq]; [now left|right].
      intros Hq'. apply Hq. unfold roomy in *. cbn [length] in Hq'. nia.
Qed.

Lemma insert_cases v xs ys x : repr v (xs ++ ys) ->
  (exists v' y, insert W sizeof_T v (length xs) x = Done v' /\ x = Some y /\ repr v' (xs ++ y :: ys) /\
     (length (xs ++ ys) + 1 <= v_capacity v -> v_capacity v' = v_capacity v /\ v_owned v' = v_owned v)) \/
  (exists v', insert W sizeof_T v (length xs) x = Throw v' /\ repr v' (xs ++ ys) /\
     (x = None \/ ~ roomy (length (xs ++ ys) + 1))).
Proof.
  intros H. unfold insert.
  assert (1 <= size_max W)%Z.
  { unfold size_max. assert (2 ^ 1 <= 2 ^ W)%Z by (apply Z.pow_le_mono_r; lia). lia. }
  destruct (reserve_extra_cases v _ 1 H ltac:(lia)) as [(v1 & -> & Hr & Hc & Hs)|[-> Hq]].
  2:{ right. exists v. cbn [vbind]. auto. }
  cbn [vbind]. pose proof Hr as (H1 & H2 & H3 & H4). destruct (mem_split v1 _ 1 Hr Hc) as (k & Hm & Hk).
  rewrite H1. rewrite app_length in *. replace (length xs <=? length xs + length ys) with true by lia.
  cbn [negb]. replace (length xs + length ys - length xs) with (length ys) by lia.
  rewrite Hm. rewrite map_app, <- app_assoc.
  rewrite move_up_mid by (rewrite ?map_length; lia). cbn [obnd].
  destruct x as [x|].
  - left. cbn [repeat app]. rewrite create_mid by now rewrite map_length. cbn [obnd].
    eexists _, x. split; [reflexivity|]. split; [reflexivity|].
    split; [|intros Hle; rewrite (Hs Hle); split; reflexivity].
    replace (length xs + length ys + 1) with (length (xs ++ x :: ys)) by (rewrite app_length; cbn; lia).
    fin_repr.
  - right. rewrite move_down_mid by (rewrite ?map_length; lia). cbn [obnd].
    eexists. split; [reflexivity|]. split; [|now left].
    rewrite <- H1. fin_repr.
Qed.

Lemma erase_ok v xs ys zs : repr v (xs ++ ys ++ zs) ->
  exists v', erase_range v (length xs) (length xs + length ys) = Done v' /\ repr v' (xs ++ zs) /\
    v_capacity v' = v_capacity v /\ v_owned v' = v_owned v.
Proof.
  intros H. pose proof H as (H1 & H2 & H3 & H4). unfold erase_range.
  replace (length xs + length ys - length xs) with (length ys) by lia.
  destruct (Nat.ltb_spec 0 (length ys)).
  2:{ destruct ys; [|cbn in *; lia]. exists v. cbn [app] in H. auto. }
  unfold erase. rewrite H1. rewrite !app_length in *.
  replace (length xs <=? length xs + (length ys + length zs)) with true by lia.
  replace (length ys <=? length xs + (length ys + length zs) - length xs) with true by lia.
  replace (0 <? length ys) with true by lia. cbn [andb negb].
  destruct (mem_split0 _ _ H) as (k & Hm & Hk). rewrite Hm. rewrite !map_app, <- !app_assoc.
  rewrite destroy_mid by (rewrite ?map_length; reflexivity). cbn [obnd].
  rewrite move_down_mid by (rewrite ?map_length; lia). cbn [obnd].
  eexists. split; [reflexivity|]. split; [|split; reflexivity].
  replace (length xs + (length ys + length zs) - length ys) with (length (xs ++ zs)) by (rewrite app_length; lia).
  fin_repr.
Qed.

Lemma resize_down_ok v xs ys make : repr v (xs ++ ys) ->
  exists v', resize W sizeof_T v (length xs) make = Done v' /\ repr v' xs /\
    v_capacity v' = v_capacity v /\ v_owned v' = v_owned v.
Proof.
  intros H. pose proof H as (H1 & H2 & H3 & H4). unfold resize. rewrite H1. rewrite app_length in *.
  replace (length xs <=? length xs + length ys) with true by lia.
  replace (length xs + length ys - length xs) with (length ys) by lia.
  destruct (mem_split0 _ _ H) as (k & Hm & Hk). rewrite Hm. rewrite map_app, <- app_assoc.
  rewrite destroy_mid by (rewrite ?map_length; reflexivity). cbn [obnd].
  eexists. split; [reflexivity|]. split; [|split; reflexivity].
  fin_repr.
Qed.

Lemma clear_ok v xs : repr v xs ->
  exists v', clear v = Done v' /\ repr v' [] /\ v_capacity v' = v_capacity v /\ v_owned v' = v_owned v.
Proof.
  intros H. pose proof H as (H1 & H2 & H3 & H4). unfold clear. rewrite H1.
  destruct (mem_split0 _ _ H) as (k & Hm & Hk). rewrite Hm. change (live xs ++ free k) with ([] ++ live xs ++ free k).
  rewrite destroy_mid by reflexivity. cbn [obnd app].
  eexists. split; [reflexivity|]. split; [|split; reflexivity].
  change 0 with (length (@nil T)). fin_repr.
Qed.

Lemma resize_up_empty v n make : repr v [] -> 0 < n -> (Z.of_nat n <= size_max W)%Z ->
  (exists v' ys, resize W sizeof_T v n make = Done v' /\ seq_all (map make (seq 0 n)) = Some ys /\
     repr v' ys /\
     (n <= v_capacity v -> v_capacity v' = v_capacity v /\ v_owned v' = v_owned v)) \/
  (exists v', resize W sizeof_T v n make = Throw v' /\ repr v' [] /\
     (seq_all (map make (seq 0 n)) = None \/ ~ roomy n)).
Proof.
  intros H H0 Hn. pose proof H as (Hs0 & _). unfold resize. rewrite Hs0.
  replace (n <=? length []) with false by (cbn; lia).
  destruct (reserve_cases v [] n H Hn) as [(v1 & -> & Hr & Hc & Hs)|[-> Hq]].
  2:{ right. exists v. cbn [vbind]. auto. }
  cbn [vbind]. pose proof Hr as (H1 & H2 & H3 & H4). destruct (mem_split v1 [] n Hr Hc) as (k & Hm & Hk).
  rewrite Hm. rewrite H1. rewrite fill_mid by reflexivity.
  destruct (seq_all (map make (seq 0 n))) as [ys|] eqn:E; cbn [filled].
  - left. eexists _, ys. split; [reflexivity|]. split; [reflexivity|].
    assert (Hl : length ys = n) by (apply seq_all_length in E; rewrite map_length, seq_length in E; lia).
    split; [|intros Hle; rewrite (Hs Hle); split; reflexivity].
    rewrite <- Hl. fin_repr.
  - right. eexists. split; [reflexivity|]. split; [|now left].
    fin_repr.
Qed.

Lemma shrink_cases v xs : repr v xs ->
  (exists v', shrink_to_fit W sizeof_T v = Done v' /\ repr v' xs /\
     (v_owned v = true -> v_capacity v' = length xs)) \/
  (shrink_to_fit W sizeof_T v = Throw v /\ ~ roomy (length xs)).
Proof.
  intros H. pose proof H as (H1 & H2 & H3 & H4). unfold shrink_to_fit. rewrite H1.
  destruct (v_owned v); cbn [andb].
  2:{ left. exists v. split; [reflexivity|]. split; [exact H|]. discriminate. }
  destruct (Nat.ltb_spec (length xs) (v_capacity v)).
  - destruct (realloc_cases v xs (length xs) H) as [(v' & ? & ? & ?)|[? Ho]]; [lia|lia| |].
    + left. exists v'. auto.
    + right. split; [assumption|]. unfold roomy. nia.
  - left. exists v. split; [reflexivity|]. split; [exact H|]. lia.
Qed.

Lemma repr_at v xs i : repr v xs ->
  at_ v i = match nth_error xs i with Some x => Done (Some x) | None => Throw None end.
Proof.
  intros (H1 & H2 & H3 & H4). unfold at_. rewrite H1. destruct (Nat.ltb_spec i (length xs)).
  - unfold fetch. rewrite H4. rewrite nth_error_app1 by now rewrite map_length.
    rewrite nth_error_map. destruct (nth_error xs i) eqn:E; [reflexivity|].
    apply nth_error_None in E. lia.
  - destruct (nth_error xs i) eqn:E; [|reflexivity]. apply nth_error_Some_bound in E || idtac.
    assert (nth_error xs i <> None) by congruence. apply nth_error_Some in H0. lia.
Qed.

Lemma repr_destroy v xs : repr v xs -> destroy v = Some (repeat None (length (v_mem v))).
Proof.
  intros (H1 & H2 & H3 & H4). unfold destroy. rewrite H1.
  replace (v_mem v) with ([] ++ live xs ++ free (length (v_mem v) - length xs)) at 1 by (symmetry; exact H4).
  rewrite destroy_mid by reflexivity. cbn [app]. rewrite <- repeat_app. do 2 f_equal. lia.
Qed.

Lemma repr_empty N : (Z.of_nat N <= size_max W)%Z -> repr (vempty N) [].
Proof.
  intros H. unfold repr, vempty. cbn [v_size v_capacity v_mem length map app].
  rewrite repeat_length. split; [reflexivity|]. split; [lia|]. split; [lia|]. f_equal. lia.
Qed.

End Proofs.
