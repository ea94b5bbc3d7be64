(* Lemmas about the registry of file formats *)
From Coq Require Import ZArith Bool List Lia Sorted Permutation.
From Verif Require Import FlatMapModel FlatMapSpec FlatMapProofs FlatMapProps EnumModel EnumProofs FmtRegModel FmtRegSpec ArrLib.
Import ListNotations.

Notation key := (list Z).
Notation entry := (list Z * nat)%type.

Lemma str_swo : strict_weak_order str_less.
Proof.
  constructor.
  - exact lex_irr.
  - exact lex_trans.
  - intros x y z H. unfold str_less in *. destruct (lex_less Z.ltb x y) eqn:A; [left; reflexivity|]. right.
    destruct (lex_less Z.ltb y x) eqn:B; [exact (lex_trans _ _ _ B H)|].
    rewrite <- (lex_total _ _ A B). exact H.
Qed.

Lemma str_eqv : forall a b, eqv str_less a b = if list_eq_dec Z.eq_dec b a then true else false.
Proof.
  intros a b. destruct (list_eq_dec Z.eq_dec b a) as [->|N].
  - apply (eqv_refl _ str_swo).
  - destruct (eqv str_less a b) eqn:E; [|reflexivity]. apply eqv_true in E. destruct E as [E1 E2].
    exfalso. apply N. exact (lex_total _ _ E2 E1).
Qed.

(* entries made by the registration of the formats, the first of which has index i *)
Fixpoint entries (keys : format -> list key) (i : nat) (fs : list format) : list entry :=
  match fs with
  | [] => []
  | f :: fs => map (fun k => (k, i)) (keys f) ++ entries keys (S i) fs
  end.

Lemma entries_app : forall keys fs gs i,
  entries keys i (fs ++ gs) = entries keys i fs ++ entries keys (i + length fs) gs.
Proof.
  induction fs as [|f fs IH]; intros gs i; cbn [entries app length].
  - f_equal. lia.
  - rewrite IH, app_assoc. do 2 f_equal. lia.
Qed.

Notation bag := (bag_of str_less (@fst key nat)).
Notation brel := (bag_rel str_less (@fst key nat)).

Lemma bag_map : forall k i ks,
  bag (map (fun k => (k, i)) ks) k = repeat (k, i) (count_occ (list_eq_dec Z.eq_dec) ks k).
Proof.
  induction ks as [|x ks IH]; cbn [map count_occ]; [reflexivity|].
  unfold bag_of in *. cbn [filter fst]. rewrite str_eqv.
  destruct (list_eq_dec Z.eq_dec x k) as [->|N]; [cbn [repeat]; f_equal|]; exact IH.
Qed.

Lemma map_repeat' : forall {A B} (g : A -> B) x n, map g (repeat x n) = repeat (g x) n.
Proof. induction n; cbn; [reflexivity | f_equal; assumption]. Qed.

Lemma bag_formats : forall keys k fs pre,
  map (fun e => nth_error (pre ++ fs) (snd e)) (bag (entries keys (length pre) fs) k) =
  map Some (with_key keys k fs).
Proof.
  intros keys k. induction fs as [|f fs IH]; intros pre; [reflexivity|].
  cbn [entries]. unfold with_key. cbn [map concat]. unfold bag_of in *. rewrite filter_app, !map_app. f_equal.
  - pose proof (bag_map k (length pre) (keys f)) as B. unfold bag_of in B. rewrite B, !map_repeat'. cbn [snd].
    rewrite nth_error_app2, Nat.sub_diag by lia. reflexivity.
  - specialize (IH (pre ++ [f])). rewrite <- app_assoc, app_length in IH. cbn [length app] in IH.
    rewrite Nat.add_1_r in IH. exact IH.
Qed.

Lemma hd_map : forall {A B} (g : A -> B) l, hd_error (map g l) = option_map g (hd_error l).
Proof. destruct l; reflexivity. Qed.

Lemma with_key_first : forall (keys : format -> list key) k fs,
  is_first (fun f => In k (keys f)) fs (hd_error (with_key keys k fs)).
Proof.
  intros keys k. induction fs as [|f fs IH]; [constructor|].
  unfold with_key in *. cbn [map concat].
  destruct (count_occ (list_eq_dec Z.eq_dec) (keys f) k) as [|n] eqn:E.
  - assert (N : ~ In k (keys f)) by (intros H; apply (count_occ_In (list_eq_dec Z.eq_dec)) in H; lia).
    cbn [repeat app]. unfold is_first in *. destruct (hd_error _) as [g|].
    + destruct IH as (a & b & -> & Hg & Ha). exists (f :: a), b. repeat split; [assumption|]. constructor; assumption.
    + constructor; assumption.
  - cbn [repeat app hd_error is_first]. exists [], fs. repeat split; [|constructor].
    apply (count_occ_In (list_eq_dec Z.eq_dec)). lia.
Qed.

(* the state after registration of the formats *)
Record registered (r : registry) (fs : list format) : Prop := {
  rg_formats : formats r = fs;
  rg_sorted : ssorted str_less fst (format_map r);
  rg_map : forall k, hd_error (bag (format_map r) k) = hd_error (bag (entries (fun f => [f_ident f]) 0 fs) k);
  rg_ext : brel (formats_by_extension r) (entries f_extensions 0 fs);
  rg_mime : brel (formats_by_mime_type r) (entries f_mime_types 0 fs);
}.

Lemma registered_empty : registered empty_registry [].
Proof.
  constructor; cbn; try reflexivity; try constructor; try constructor; try reflexivity.
Qed.

Lemma emplace_all_rel : forall keys m h i, brel m h ->
  exists m', emplace_all m keys i = Some m' /\ brel m' (h ++ map (fun k => (k, i)) keys).
Proof.
  induction keys as [|k keys IH]; intros m h i R; cbn [emplace_all map].
  - exists m. rewrite app_nil_r. auto.
  - destruct (mm_step_rel str_less fst str_swo m h (MmInsert (k, i)) R) as (m1 & E & R1).
    unfold mm_step in E. destruct (fm_insert_multi str_less fst m (k, i)) as [[m1' p]|] eqn:F; [|discriminate].
    cbn [obind fst snd] in *. destruct (nth_error m1' p); [|discriminate]. cbn [obind] in E. injection E as -> _.
    cbn [bag_step fst] in R1. destruct (IH m1 _ i R1) as (m' & E' & R').
    exists m'. split; [exact E'|]. rewrite <- app_assoc in R'. exact R'.
Qed.

Lemma map_insert : forall m h k i, ssorted str_less fst m ->
  (forall k, hd_error (bag m k) = hd_error (bag h k)) ->
  exists m' p b, fm_insert str_less fst m (k, i) = Some (m', p, b) /\ nth_error m' p <> None /\
    ssorted str_less fst m' /\ forall k', hd_error (bag m' k') = hd_error (bag (h ++ [(k, i)]) k').
Proof.
  intros m h k i S H.
  destruct (three_split str_less fst str_swo m k (ssorted_wsorted str_less fst str_swo m S)) as (A & B & C & -> & HA & HB & HC).
  pose proof (H k) as Hk. unfold bag_of in Hk. rewrite (split_filter str_less fst str_swo k A B C) in Hk by assumption.
  rewrite (fm_insert_split str_less fst str_swo A B C (k, i)) by assumption.
  destruct B as [|b B].
  - exists (A ++ (k, i) :: C), (length A), true. split; [reflexivity|].
    split; [rewrite nth_error_app2, Nat.sub_diag by lia; discriminate|].
    split; [apply ssorted_insert; assumption|].
    intros k'. unfold bag_of in *. rewrite (filter_eqv_insert str_less str_swo A C (k, i) k') by assumption.
    cbn [fst]. rewrite (filter_app _ h). cbn [filter fst]. rewrite (eqv_sym _ k k').
    destruct (eqv str_less k' k) eqn:E.
    + rewrite str_eqv in E. destruct (list_eq_dec Z.eq_dec k k') as [<-|]; [|discriminate].
      destruct (filter (fun e => eqv str_less k (fst e)) h); [reflexivity|discriminate].
    + rewrite app_nil_r. apply H.
  - exists (A ++ (b :: B) ++ C), (length A), false. split; [reflexivity|].
    split; [rewrite nth_error_app2, Nat.sub_diag by lia; discriminate|]. split; [assumption|].
    intros k'. rewrite H. unfold bag_of in *. rewrite filter_app. cbn [filter fst].
    destruct (eqv str_less k' k) eqn:E; [|rewrite app_nil_r; reflexivity].
    rewrite str_eqv in E. destruct (list_eq_dec Z.eq_dec k k') as [<-|]; [|discriminate].
    destruct (filter (fun e => eqv str_less k (fst e)) h); [discriminate|reflexivity].
Qed.

Lemma num_right : forall r fs, registered r fs -> (Z.of_nat (length fs) < 2 ^ 31)%Z ->
  get_num_file_formats r = Some (Z.of_nat (length fs)).
Proof.
  intros r fs R L. unfold get_num_file_formats. rewrite (rg_formats _ _ R).
  destruct (Z.leb_spec (Z.of_nat (length fs)) (2 ^ 31 - 1)); [reflexivity|lia].
Qed.

Lemma register_right : forall r fs f, registered r fs -> (Z.of_nat (length fs) < 2 ^ 31 - 1)%Z ->
  exists r', register_file_format r f = Some (inr r') /\ registered r' (fs ++ [f]).
Proof.
  intros r fs f R L. unfold register_file_format. rewrite (num_right r fs R) by lia. cbn [obind].
  destruct (Z.eqb_spec (Z.of_nat (length fs)) (2 ^ 31 - 1)); [lia|].
  destruct R as [<- S M E T].
  destruct (map_insert _ _ (f_ident f) (length (formats r)) S M) as (m' & p & b & -> & N & S' & M').
  cbn [obind]. destruct (nth_error m' p); [|congruence]. cbn [obind negb].
  destruct (emplace_all_rel (f_extensions f) _ _ (length (formats r)) E) as (e' & -> & E').
  destruct (emplace_all_rel (f_mime_types f) _ _ (length (formats r)) T) as (t' & -> & T').
  cbn [obind]. eexists. split; [reflexivity|].
  constructor; cbn [formats format_map formats_by_extension formats_by_mime_type];
    [reflexivity|assumption|..]; rewrite entries_app; cbn [entries map app]; rewrite Nat.add_0_l, ?app_nil_r; assumption.
Qed.

Lemma register_full : forall r fs f, registered r fs -> (Z.of_nat (length fs) = 2 ^ 31 - 1)%Z ->
  register_file_format r f = Some (inl TooMany).
Proof.
  intros r fs f R L. unfold register_file_format. rewrite (num_right r fs R) by lia. cbn [obind].
  rewrite L, Z.eqb_refl. reflexivity.
Qed.

Lemma register_from_right : forall gs r fs, registered r fs -> (Z.of_nat (length (fs ++ gs)) < 2 ^ 31)%Z ->
  exists r', register_from r gs = Some (inr r') /\ registered r' (fs ++ gs).
Proof.
  induction gs as [|g gs IH]; intros r fs R L.
  - exists r. rewrite app_nil_r. auto.
  - cbn [register_from]. rewrite app_length in L. cbn [length] in L.
    destruct (register_right r fs g R) as (r1 & E & R1); [lia|]. rewrite E. cbn [obind].
    destruct (IH r1 (fs ++ [g]) R1) as (r' & E' & R').
    { rewrite !app_length. cbn [length]. lia. }
    exists r'. rewrite <- app_assoc in R'. auto.
Qed.

Lemma register_from_full : forall gs r fs, registered r fs -> (Z.of_nat (length fs) < 2 ^ 31)%Z ->
  (2 ^ 31 <= Z.of_nat (length (fs ++ gs)))%Z -> register_from r gs = Some (inl TooMany).
Proof.
  induction gs as [|g gs IH]; intros r fs R L1 L2.
  - rewrite app_nil_r in L2. lia.
  - cbn [register_from]. destruct (Z.eq_dec (Z.of_nat (length fs)) (2 ^ 31 - 1)) as [E|N].
    + rewrite (register_full r fs g R E). reflexivity.
    + destruct (register_right r fs g R) as (r1 & E & R1); [lia|]. rewrite E. cbn [obind].
      apply (IH r1 (fs ++ [g]) R1); rewrite <- ?app_assoc, ?app_length in *; cbn [length app] in *; lia.
Qed.

Lemma get_right : forall r fs index, registered r fs -> (Z.of_nat (length fs) < 2 ^ 31)%Z ->
  get_file_format r index = Some (if (index <? 0)%Z then None else nth_error fs (Z.to_nat index)).
Proof.
  intros r fs index R L. unfold get_file_format. rewrite (num_right r fs R L), (rg_formats _ _ R). cbn [obind].
  destruct (Z.leb_spec 0 index), (Z.ltb_spec index 0); try lia; cbn [andb]; [|reflexivity].
  destruct (Z.ltb_spec index (Z.of_nat (length fs))).
  - destruct (nth_error fs (Z.to_nat index)) eqn:E; [reflexivity|]. apply nth_error_None in E. lia.
  - symmetry. f_equal. apply nth_error_None. lia.
Qed.

Lemma lookup_right : forall r fs k, registered r fs ->
  lookup r k = Some (hd_error (with_key (fun f => [f_ident f]) k fs)).
Proof.
  intros r fs k R. unfold lookup.
  destruct (three_split str_less fst str_swo _ k (ssorted_wsorted str_less fst str_swo _ (rg_sorted _ _ R)))
    as (A & B & C & E & HA & HB & HC).
  pose proof (rg_map _ _ R k) as Hk. rewrite E in *. unfold bag_of in Hk at 1.
  rewrite (split_filter str_less fst str_swo k A B C) in Hk by assumption.
  rewrite (fm_lookup_split str_less fst str_swo k A B C) by assumption. cbn [obind]. rewrite Hk.
  pose proof (bag_formats (fun f => [f_ident f]) k fs []) as BF. cbn [app length] in BF.
  apply (f_equal (@hd_error _)) in BF. rewrite !hd_map in BF. rewrite (rg_formats _ _ R).
  destruct (hd_error (bag (entries (fun f => [f_ident f]) 0 fs) k)) as [e|],
    (hd_error (with_key (fun f => [f_ident f]) k fs)) as [f|]; cbn [option_map] in BF; try discriminate; [|reflexivity].
  injection BF as BF. rewrite BF. reflexivity.
Qed.

Lemma collect_right : forall r L B A C tray, map (fun e => nth_error (formats r) (snd e)) B = map Some L ->
  collect r (A ++ B ++ C) (length A) (length B) tray = Some (tray ++ L).
Proof.
  intros r. induction L as [|f L IH]; intros [|b B] A C tray H; cbn in H; try discriminate.
  - cbn. now rewrite app_nil_r.
  - injection H as H1 H2. cbn [length collect].
    rewrite nth_error_app2, Nat.sub_diag by lia. cbn [app nth_error obind]. rewrite H1. cbn [obind].
    specialize (IH B (A ++ [b]) C (tray ++ [f]) H2). rewrite <- !app_assoc, app_length in IH. cbn [app length] in IH.
    rewrite Nat.add_1_r in IH. exact IH.
Qed.

Lemma range_right : forall r fs m keys k, formats r = fs -> brel m (entries keys 0 fs) ->
  lookup_first r m k = Some (hd_error (with_key keys k fs)) /\
  forall tray, lookup_all r m k tray = Some (tray ++ with_key keys k fs).
Proof.
  intros r fs m keys k F R.
  destruct (bag_split str_less fst str_swo m _ k R) as (A & B & C & -> & HA & HB & HC & EB).
  pose proof (bag_formats keys k fs []) as BF. cbn [app length] in BF. rewrite <- EB in BF.
  unfold lookup_first, lookup_all. rewrite (equal_range_split str_less fst str_swo k A B C) by assumption.
  cbn [obind fst snd]. rewrite <- F in *. split.
  - destruct B as [|b B], (with_key keys k (formats r)) as [|f L]; cbn in BF; try discriminate.
    + cbn [length]. rewrite Nat.add_0_r, Nat.eqb_refl. reflexivity.
    + injection BF as BF _. cbn [length]. destruct (Nat.eqb_spec (length A) (length A + S (length B))); [lia|].
      cbn [negb]. rewrite nth_error_app2, Nat.sub_diag by lia. cbn [app nth_error obind]. rewrite BF. reflexivity.
  - intros tray. replace (length A + length B - length A)%nat with (length B) by lia. apply collect_right. assumption.
Qed.
