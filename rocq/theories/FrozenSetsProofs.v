From Coq Require Import List Arith Bool Lia Sorted Permutation.
From Verif Require Import ArrLib FlatMapSpec FlatMapProofs FrozenSetsModel FrozenSetsSpec.
Import ListNotations.

Section P.
Context {T : Type} (lt : T -> T -> bool) (default : T) (sort : list T -> list T).
Context (HO : strict_weak_order lt) (HS : sorts lt sort).
Notation sset := (set_of lt).
Notation ss := (strictly_sorted lt).
Notation un := (set_union lt).

Lemma eqv_tr x a b : eqv lt a b = true -> eqv lt x a = eqv lt x b.
Proof. intros H. rewrite (eqv_sym lt x a), (eqv_sym lt x b). now apply eqv_trans_l. Qed.

Lemma un_nil_l l : un [] l = l. Proof. destruct l; reflexivity. Qed.
Lemma un_nil_r l : un l [] = l. Proof. destruct l; reflexivity. Qed.
Lemma un_cons a l1 b l2 : un (a :: l1) (b :: l2) =
  if lt b a then b :: un (a :: l1) l2 else if lt a b then a :: un l1 (b :: l2) else a :: un l1 l2.
Proof. reflexivity. Qed.

Lemma un_ind (P : list T -> list T -> Prop) :
  (forall l, P [] l) -> (forall l, P l []) ->
  (forall a l1 b l2, P (a :: l1) l2 -> P l1 (b :: l2) -> P l1 l2 -> P (a :: l1) (b :: l2)) ->
  forall l1 l2, P l1 l2.
Proof.
  intros H1 H2 H3. induction l1 as [|a l1 IH1]; [apply H1|].
  induction l2 as [|b l2 IH2]; [apply H2|]. apply H3; auto.
Qed.

Lemma un_mem l1 l2 x : sset (un l1 l2) x = sset l1 x || sset l2 x.
Proof.
  revert l1 l2. apply (un_ind (fun l1 l2 => sset (un l1 l2) x = sset l1 x || sset l2 x)).
  - intros l. now rewrite un_nil_l.
  - intros l. rewrite un_nil_r. cbn. now rewrite orb_false_r.
  - intros a l1 b l2 I1 I2 I3. rewrite un_cons. unfold set_of in *. cbn [existsb] in *.
    destruct (lt b a) eqn:E1; [|destruct (lt a b) eqn:E2].
    + cbn [existsb]. rewrite I1. destruct (eqv lt x a), (eqv lt x b), (existsb _ l1), (existsb _ l2); reflexivity.
    + cbn [existsb]. rewrite I2. cbn [existsb]. destruct (eqv lt x a), (eqv lt x b), (existsb _ l1), (existsb _ l2); reflexivity.
    + cbn [existsb]. rewrite I3. rewrite (eqv_tr x a b) by (apply eqv_true; auto).
      destruct (eqv lt x b), (existsb _ l1), (existsb _ l2); reflexivity.
Qed.

Lemma un_in l1 l2 y : In y (un l1 l2) -> In y l1 \/ In y l2.
Proof.
  revert l1 l2. apply (un_ind (fun l1 l2 => In y (un l1 l2) -> In y l1 \/ In y l2)).
  - intros l. rewrite un_nil_l. auto.
  - intros l. rewrite un_nil_r. auto.
  - intros a l1 b l2 I1 I2 I3. rewrite un_cons.
    destruct (lt b a); [|destruct (lt a b)]; intros [<-|H]; cbn [In] in *; auto.
    + destruct (I1 H); auto. 
    + destruct (I2 H); auto.
    + destruct (I3 H); auto.
Qed.

Lemma un_sorted l1 l2 : ss l1 -> ss l2 -> ss (un l1 l2).
Proof.
  revert l1 l2. apply (un_ind (fun l1 l2 => ss l1 -> ss l2 -> ss (un l1 l2))).
  - intros l _ H. now rewrite un_nil_l.
  - intros l H _. now rewrite un_nil_r.
  - intros a l1 b l2 I1 I2 I3 S1 S2. rewrite un_cons.
    pose proof S1 as S1'. pose proof S2 as S2'. apply SS_cons in S1', S2'.
    destruct S1' as [T1 F1], S2' as [T2 F2].
    destruct (lt b a) eqn:E1; [|destruct (lt a b) eqn:E2]; apply SS_cons; (split; [first [apply I1|apply I2|apply I3]; assumption|]).
    + intros y Hy. apply un_in in Hy. destruct Hy as [[<-|Hy]|Hy]; auto.
      apply (lt_trans lt HO) with a; auto.
    + intros y Hy. apply un_in in Hy. destruct Hy as [Hy|[<-|Hy]]; auto.
      apply (lt_trans lt HO) with b; auto.
    + intros y Hy. apply un_in in Hy. destruct Hy as [Hy|Hy]; auto.
      rewrite (lt_eqv_l lt HO a b); [auto|]. apply eqv_true; auto.
Qed.

Lemma un_length_l l1 l2 : length l1 <= length (un l1 l2) /\ (length (un l1 l2) = length l1 -> un l1 l2 = l1).
Proof.
  revert l1 l2. apply (un_ind (fun l1 l2 => length l1 <= length (un l1 l2) /\ (length (un l1 l2) = length l1 -> un l1 l2 = l1))).
  - intros l. rewrite un_nil_l. split; [cbn; lia|]. intros H. destruct l; [reflexivity|discriminate].
  - intros l. rewrite un_nil_r. auto.
  - intros a l1 b l2 [I1 J1] [I2 J2] [I3 J3]. rewrite un_cons.
    destruct (lt b a); [|destruct (lt a b)]; cbn [length] in *; (split; [lia|]); intros H.
    + lia.
    + rewrite J2 by lia. reflexivity.
    + rewrite J3 by lia. reflexivity.
Qed.

Lemma un_length_r l1 l2 : length l2 <= length (un l1 l2) /\
  (length (un l1 l2) = length l2 -> forall x, sset (un l1 l2) x = sset l2 x).
Proof.
  revert l1 l2. apply (un_ind (fun l1 l2 => length l2 <= length (un l1 l2) /\
    (length (un l1 l2) = length l2 -> forall x, sset (un l1 l2) x = sset l2 x))).
  - intros l. rewrite un_nil_l. split; [cbn; lia|]. auto.
  - intros l. rewrite un_nil_r. split; [cbn; lia|]. destruct l; [auto|discriminate].
  - intros a l1 b l2 [I1 J1] [I2 J2] [I3 J3]. rewrite un_cons. unfold set_of in *.
    destruct (lt b a) eqn:E1; [|destruct (lt a b) eqn:E2]; cbn [length existsb] in *; (split; [lia|]); intros H x.
    + rewrite J1 by lia. reflexivity.
    + lia.
    + rewrite J3 by lia. now rewrite (eqv_tr x a b) by (apply eqv_true; auto).
Qed.

(* unique *)
Lemma uniq_from_in a l y : In y (uniq_from lt a l) -> y = a \/ In y l.
Proof.
  revert a. induction l as [|b l IH]; intros a; cbn [uniq_from In].
  - intros [<-|[]]. auto.
  - destruct (negb (lt a b) && negb (lt b a)).
    + intros H. apply IH in H. tauto.
    + intros [<-|H]; [auto|]. apply IH in H. right. destruct H; auto.
Qed.
Lemma uniq_from_mem a l x : sset (uniq_from lt a l) x = eqv lt x a || sset l x.
Proof.
  revert a. induction l as [|b l IH]; intros a; cbn [uniq_from].
  - cbn. reflexivity.
  - unfold set_of in *. cbn [existsb]. destruct (negb (lt a b) && negb (lt b a)) eqn:E.
    + rewrite IH. rewrite (eqv_tr x a b) by exact E. now destruct (eqv lt x b).
    + cbn [existsb]. now rewrite IH.
Qed.
Lemma uniq_from_sorted l : forall a, StronglySorted (fun a b => lt b a = false) (a :: l) -> ss (uniq_from lt a l).
Proof.
  induction l as [|b l IH]; intros a H; cbn [uniq_from].
  - constructor; constructor.
  - apply SS_cons in H. destruct H as [H1 H2]. destruct (negb (lt a b) && negb (lt b a)) eqn:E.
    + apply IH. apply SS_cons in H1. apply SS_cons. split; [tauto|]. intros y Hy. apply H2. now right.
    + apply SS_cons. split; [now apply IH|].
      assert (Hab : lt a b = true).
      { specialize (H2 b (or_introl eq_refl)). rewrite H2 in E. destruct (lt a b); [reflexivity|discriminate]. }
      intros y Hy. apply uniq_from_in in Hy. destruct Hy as [->|Hy]; [assumption|].
      destruct (lt_neg lt HO a y b Hab) as [|C]; [assumption|].
      apply SS_cons in H1. destruct H1 as [_ H1]. rewrite (H1 y Hy) in C. discriminate.
Qed.
Lemma perm_mem l1 l2 x : Permutation l1 l2 -> sset l1 x = sset l2 x.
Proof.
  unfold set_of. induction 1 as [|y l1 l2 _ IH|y z l|l1 l2 l3 _ IH1 _ IH2]; cbn.
  - reflexivity.
  - now rewrite IH.
  - now rewrite !orb_assoc, (orb_comm (eqv lt x z)).
  - congruence.
Qed.
Lemma uniq_sort xs : ss (uniq lt (sort xs)) /\ forall x, sset (uniq lt (sort xs)) x = sset xs x.
Proof.
  destruct (HS xs) as [Hp Hs]. split.
  - destruct (sort xs) as [|a l]; [constructor|]. now apply uniq_from_sorted.
  - intros x. rewrite <- (perm_mem _ _ x Hp). destruct (sort xs) as [|a l]; [reflexivity|].
    cbn [uniq]. rewrite uniq_from_mem. reflexivity.
Qed.

(* vectors and slices *)
Lemma vresize_app l1 l2 : vresize default (l1 ++ l2) (length l1) = l1.
Proof.
  unfold vresize. rewrite firstn_app, Nat.sub_diag, firstn_all, app_length. cbn [firstn].
  replace (length l1 - (length l1 + length l2)) with 0 by lia. cbn. now rewrite !app_nil_r.
Qed.
Lemma vresize_self (l : list T) : vresize default l (length l) = l.
Proof. rewrite <- (app_nil_r l) at 1. apply vresize_app. Qed.
Lemma get_app elems (more : list T) i l : fs_get elems i = Some l -> fs_get (elems ++ more) i = Some l.
Proof.
  unfold fs_get. destruct i as [b e]. cbn [fst snd]. rewrite app_length.
  destruct (Nat.leb_spec b e), (Nat.leb_spec e (length elems)); cbn [andb]; try discriminate.
  replace (e <=? length elems + length more) with true by (symmetry; apply Nat.leb_le; lia). cbn [andb].
  intros H1. rewrite <- H1. f_equal. rewrite skipn_app.
  replace (b - length elems) with 0 by lia. cbn [skipn].
  rewrite firstn_app. rewrite skipn_length. replace (e - b - (length elems - b)) with 0 by lia. cbn [firstn].
  now rewrite app_nil_r.
Qed.
Lemma get_new (elems l : list T) : fs_get (elems ++ l) (length elems, length elems + length l) = Some l.
Proof.
  unfold fs_get. cbn [fst snd]. rewrite app_length.
  replace (length elems <=? length elems + length l) with true by (symmetry; apply Nat.leb_le; lia).
  rewrite Nat.leb_refl. cbn [andb]. rewrite skipn_app, Nat.sub_diag, skipn_all. cbn [skipn app].
  replace (length elems + length l - length elems) with (length l) by lia. now rewrite firstn_all.
Qed.
Lemma get_size (elems : list T) i l : fs_get elems i = Some l -> ident_size i = length l.
Proof.
  unfold fs_get, ident_size. destruct i as [b e]. cbn [fst snd].
  destruct (Nat.leb_spec b e), (Nat.leb_spec e (length elems)); cbn [andb]; try discriminate.
  intros H1. inversion H1. rewrite firstn_length, skipn_length. lia.
Qed.

(* An operation: appends something to the vector and returns an identifier of a
   strictly sorted list denoting s. *)
Definition good (elems : list T) (s : T -> bool) (r : list T * (nat * nat)) : Prop :=
  exists more l, fst r = elems ++ more /\ fs_get (fst r) (snd r) = Some l /\ ss l /\ forall x, sset l x = s x.

Lemma freeze_unordered_good elems xs : good elems (sset xs) (freeze_unordered lt sort elems xs).
Proof.
  destruct (uniq_sort xs) as [H1 H2]. unfold freeze_unordered. exists (uniq lt (sort xs)), (uniq lt (sort xs)).
  cbn [fst snd]. split; [reflexivity|]. split; [apply get_new|]. auto.
Qed.
Lemma freeze_ordered_good elems xs : ss xs -> good elems (sset xs) (freeze_ordered elems xs).
Proof.
  intros H. unfold freeze_ordered. exists xs, xs. cbn [fst snd]. split; [reflexivity|].
  rewrite app_length. split; [apply get_new|]. auto.
Qed.

Lemma unite_ordered_cases elems i li xs : fs_get elems i = Some li ->
  (length li < length (un li xs) /\
   unite_ordered lt default elems i xs = Some (elems ++ un li xs, (length elems, length elems + length (un li xs)))) \/
  (un li xs = li /\ unite_ordered lt default elems i xs = Some (elems, i)).
Proof.
  intros Hi. unfold unite_ordered. rewrite Hi. cbn [obind]. rewrite (get_size _ _ _ Hi), app_length.
  replace (length elems + length (un li xs) - length elems) with (length (un li xs)) by lia.
  destruct (un_length_l li xs) as [L1 L2].
  destruct (Nat.ltb_spec (length li) (length (un li xs))).
  - left. auto.
  - right. split; [apply L2; lia|]. now rewrite vresize_app.
Qed.

Lemma unite_ordered_good elems i li xs : fs_get elems i = Some li -> ss li -> ss xs ->
  exists r, unite_ordered lt default elems i xs = Some r /\ good elems (fun x => sset li x || sset xs x) r.
Proof.
  intros Hi Si Sx.
  destruct (unite_ordered_cases elems i li xs Hi) as [[HL E]|[HU E]]; rewrite E; eexists; (split; [reflexivity|]).
  - exists (un li xs), (un li xs). cbn [fst snd]. split; [reflexivity|]. split; [apply get_new|].
    split; [now apply un_sorted|apply un_mem].
  - exists [], li. cbn [fst snd]. split; [now rewrite app_nil_r|]. split; [assumption|]. split; [assumption|].
    intros x. rewrite <- un_mem. now rewrite HU.
Qed.

Lemma discard_new elems more n : length elems = n -> forall e, discard_from default (elems ++ more) (n, e) = Some elems.
Proof.
  intros <- e. unfold discard_from. cbn [fst]. rewrite app_length.
  replace (length elems <=? length elems + length more) with true by (symmetry; apply Nat.leb_le; lia).
  now rewrite vresize_app.
Qed.

Lemma unite_cases elems i li j lj : fs_get elems i = Some li -> fs_get elems j = Some lj -> 
  (exists x, sset li x <> sset lj x) ->
  (length li < length (un li lj) /\ length lj < length (un li lj) /\
   unite lt default elems i j = Some (elems ++ un li lj, (length elems, length elems + length (un li lj)))) \/
  (un li lj = li /\ unite lt default elems i j = Some (elems, i)) \/
  (length li < length lj /\ (forall x, sset (un li lj) x = sset lj x) /\ unite lt default elems i j = Some (elems, j)).
Proof.
  intros Hi Hj [x0 Hx]. unfold unite. rewrite Hj. cbn [obind].
  destruct (un_length_r li lj) as [L1 L2]. rewrite (get_size _ _ _ Hj).
  destruct (unite_ordered_cases elems i li lj Hi) as [[HL E]|[HU E]]; rewrite E; cbn [obind].
  - unfold ident_size. cbn [fst snd].
    replace (length elems + length (un li lj) - length elems) with (length (un li lj)) by lia.
    destruct (Nat.ltb_spec (length lj) (length (un li lj))).
    + left. auto.
    + right. right. rewrite discard_new by reflexivity. cbn [obind]. split; [lia|]. split; [|reflexivity].
      apply L2. lia.
  - rewrite (get_size _ _ _ Hi). right. left. split; [assumption|].
    destruct (Nat.ltb_spec (length lj) (length li)); [reflexivity|].
    exfalso. apply Hx. rewrite <- L2 by (rewrite HU in *; lia). now rewrite HU.
Qed.

Lemma unite_good elems i li j lj : fs_get elems i = Some li -> fs_get elems j = Some lj -> ss li -> ss lj ->
  (exists x, sset li x <> sset lj x) ->
  exists r, unite lt default elems i j = Some r /\ good elems (fun x => sset li x || sset lj x) r.
Proof.
  intros Hi Hj Si Sj Hx.
  destruct (unite_cases elems i li j lj Hi Hj Hx) as [(L1 & L2 & E)|[(HU & E)|(L & HM & E)]]; rewrite E;
    eexists; (split; [reflexivity|]).
  - exists (un li lj), (un li lj). cbn [fst snd]. split; [reflexivity|]. split; [apply get_new|].
    split; [now apply un_sorted|apply un_mem].
  - exists [], li. cbn [fst snd]. split; [now rewrite app_nil_r|]. split; [assumption|]. split; [assumption|].
    intros x. rewrite <- un_mem. now rewrite HU.
  - exists [], lj. cbn [fst snd]. split; [now rewrite app_nil_r|]. split; [assumption|]. split; [assumption|].
    intros x. rewrite <- un_mem. now rewrite HM.
Qed.

Lemma unite_unordered_good elems i li xs : fs_get elems i = Some li -> ss li ->
  (exists x, sset li x <> sset xs x) ->
  exists r, unite_unordered lt default sort elems i xs = Some r /\ good elems (fun x => sset li x || sset xs x) r.
Proof.
  intros Hi Si [x0 Hx0]. unfold unite_unordered, freeze_unordered.
  destruct (uniq_sort xs) as [SL ML]. set (L := uniq lt (sort xs)) in *. cbn [fst snd].
  pose proof (get_new elems L) as HL.
  pose proof (get_app elems L i li Hi) as Hi'.
  assert (HM : forall x, sset (un li L) x = sset li x || sset xs x) by (intros x; rewrite un_mem, ML; reflexivity).
  destruct (unite_cases (elems ++ L) i li (length elems, length elems + length L) L Hi' HL) as [(L1 & L2 & E)|[(HU & E)|(LL & HM2 & E)]];
    [exists x0; rewrite ML; exact Hx0| | |]; rewrite E; cbn [obind]; rewrite (get_size _ _ _ Hi).
  - rewrite (get_size _ _ _ (get_new (elems ++ L) (un li L))).
    replace (length li <? length (un li L)) with true by (symmetry; apply Nat.ltb_lt; lia).
    rewrite get_new. cbn [obind].
    rewrite <- !app_assoc. rewrite firstn_app, Nat.sub_diag, firstn_all. cbn [firstn]. rewrite app_nil_r.
    eexists. split; [reflexivity|]. exists (un li L), (un li L). cbn [fst snd].
    rewrite (app_assoc elems), <- app_length, vresize_app. split; [reflexivity|].
    rewrite app_length. split; [apply get_new|]. split; [now apply un_sorted|assumption].
  - rewrite Nat.ltb_irrefl. eexists. split; [reflexivity|].
    rewrite vresize_app. exists [], li. cbn [fst snd]. split; [now rewrite app_nil_r|].
    split; [assumption|]. split; [assumption|]. intros x. rewrite <- HM. now rewrite HU.
  - rewrite (get_size _ _ _ HL). replace (length li <? length L) with true by (symmetry; apply Nat.ltb_lt; lia).
    rewrite HL. cbn [obind]. rewrite firstn_app, Nat.sub_diag, firstn_all. cbn [firstn]. rewrite app_nil_r.
    eexists. split; [reflexivity|]. exists L, L. cbn [fst snd].
    rewrite app_assoc, <- app_length, vresize_app. split; [reflexivity|].
    rewrite app_length. split; [apply get_new|]. split; [assumption|].
    intros x. rewrite <- HM. now rewrite HM2.
Qed.

Lemma implements_more elems ids sets more : implements lt elems ids sets -> implements lt (elems ++ more) ids sets.
Proof.
  unfold implements. intros H. induction H as [|i s ids sets (l & H1 & H2) _ IH]; constructor; [|assumption].
  exists l. split; [now apply get_app|assumption].
Qed.
Lemma implements_good elems ids sets s r : implements lt elems ids sets -> good elems s r ->
  implements lt (fst r) (ids ++ [snd r]) (sets ++ [s]).
Proof.
  intros HI (more & l & H1 & H2 & H3 & H4). unfold implements. apply Forall2_app.
  - rewrite H1. now apply implements_more.
  - constructor; [|constructor]. exists l. auto.
Qed.
Lemma implements_nth elems ids sets n s : implements lt elems ids sets -> nth_error sets n = Some s ->
  exists i l, nth_error ids n = Some i /\ fs_get elems i = Some l /\ ss l /\ forall x, sset l x = s x.
Proof.
  intros H. revert n. induction H as [|i s' ids sets (l & H1) _ IH]; intros n Hn; [destruct n; discriminate|].
  destruct n; cbn in *; [|now apply IH]. inversion Hn; subst. exists i, l. tauto.
Qed.

Lemma good_ext elems s s' r : (forall x, s x = s' x) -> good elems s r -> good elems s' r.
Proof. intros H (more & l & H1 & H2 & H3 & H4). exists more, l. repeat split; auto. intros x. now rewrite H4. Qed.

Lemma sorted1 x : ss [x]. Proof. constructor; constructor. Qed.

Lemma step_good elems ids sets op s : implements lt elems ids sets -> ordered_input lt op ->
  not_equal_sets lt sets op -> spec_result lt sets op = Some s ->
  exists elems' ids', fs_step lt default sort (elems, ids) op = Some (elems', ids') /\
    implements lt elems' ids' (sets ++ [s]) /\ (exists i, ids' = ids ++ [i]).
Proof.
  intros HI Ho Hn Hs.
  destruct op as [x|xs|xs|a b|a x|a xs|a xs]; cbn [fs_step spec_result ordered_input not_equal_sets] in *.
  - inversion Hs; subst. do 2 eexists. split; [reflexivity|]. split; [|eexists; reflexivity].
    apply (implements_good _ _ _ _ (freeze1 elems x) HI). apply freeze_ordered_good, sorted1.
  - inversion Hs; subst. do 2 eexists. split; [reflexivity|]. split; [|eexists; reflexivity].
    apply (implements_good _ _ _ _ (freeze_unordered lt sort elems xs) HI). apply freeze_unordered_good.
  - inversion Hs; subst. do 2 eexists. split; [reflexivity|]. split; [|eexists; reflexivity].
    apply (implements_good _ _ _ _ (freeze_ordered elems xs) HI). now apply freeze_ordered_good.
  - destruct (nth_error sets a) as [sa|] eqn:Ea; [|discriminate].
    destruct (nth_error sets b) as [sb|] eqn:Eb; [|discriminate]. inversion Hs; subst.
    destruct (implements_nth _ _ _ _ _ HI Ea) as (i & li & Ni & Gi & Si & Mi).
    destruct (implements_nth _ _ _ _ _ HI Eb) as (j & lj & Nj & Gj & Sj & Mj).
    rewrite Ni, Nj. cbn [obind].
    destruct (unite_good elems i li j lj Gi Gj Si Sj) as (r & Er & Hr).
    { destruct Hn as [x Hx]. exists x. now rewrite Mi, Mj. }
    rewrite Er. cbn [obind]. do 2 eexists. split; [reflexivity|]. split; [|eexists; reflexivity].
    apply implements_good with (elems := elems); [assumption|]. eapply good_ext; [|exact Hr].
    intros x. unfold set_join. cbn. now rewrite Mi, Mj.
  - destruct (nth_error sets a) as [sa|] eqn:Ea; [|discriminate]. inversion Hs; subst.
    destruct (implements_nth _ _ _ _ _ HI Ea) as (i & li & Ni & Gi & Si & Mi).
    rewrite Ni. cbn [obind]. unfold unite1.
    destruct (unite_ordered_good elems i li [x] Gi Si (sorted1 x)) as (r & Er & Hr).
    rewrite Er. cbn [obind]. do 2 eexists. split; [reflexivity|]. split; [|eexists; reflexivity].
    apply implements_good with (elems := elems); [assumption|]. eapply good_ext; [|exact Hr].
    intros y. unfold set_join. cbn beta. now rewrite Mi.
  - destruct (nth_error sets a) as [sa|] eqn:Ea; [|discriminate]. inversion Hs; subst.
    destruct (implements_nth _ _ _ _ _ HI Ea) as (i & li & Ni & Gi & Si & Mi).
    rewrite Ni. cbn [obind].
    destruct (unite_unordered_good elems i li xs Gi Si) as (r & Er & Hr).
    { destruct Hn as [x Hx]. exists x. now rewrite Mi. }
    rewrite Er. cbn [obind]. do 2 eexists. split; [reflexivity|]. split; [|eexists; reflexivity].
    apply implements_good with (elems := elems); [assumption|]. eapply good_ext; [|exact Hr].
    intros y. unfold set_join. cbn beta. now rewrite Mi.
  - destruct (nth_error sets a) as [sa|] eqn:Ea; [|discriminate]. inversion Hs; subst.
    destruct (implements_nth _ _ _ _ _ HI Ea) as (i & li & Ni & Gi & Si & Mi).
    rewrite Ni. cbn [obind].
    destruct (unite_ordered_good elems i li xs Gi Si Ho) as (r & Er & Hr).
    rewrite Er. cbn [obind]. do 2 eexists. split; [reflexivity|]. split; [|eexists; reflexivity].
    apply implements_good with (elems := elems); [assumption|]. eapply good_ext; [|exact Hr].
    intros y. unfold set_join. cbn beta. now rewrite Mi.
Qed.

Lemma run_good ops : forall elems ids sets, implements lt elems ids sets -> history_ok lt sets ops ->
  exists elems' ids' sets', fs_run lt default sort (elems, ids) ops = Some (elems', ids') /\
    spec_run lt sets ops = Some sets' /\ implements lt elems' ids' sets' /\ (exists more, ids' = ids ++ more).
Proof.
  induction ops as [|op ops IH]; intros elems ids sets HI Hh; cbn [fs_run spec_run history_ok] in *.
  - exists elems, ids, sets. repeat split; auto. exists []. now rewrite app_nil_r.
  - destruct Hh as (H1 & H2 & H3). destruct (spec_result lt sets op) as [s|] eqn:Es; [|destruct H3].
    destruct (step_good elems ids sets op s HI H1 H2 Es) as (e1 & i1 & E1 & I1 & [i ->]).
    rewrite E1. cbn [obind]. destruct (IH e1 (ids ++ [i]) (sets ++ [s]) I1 H3) as (e2 & i2 & s2 & E2 & S2 & I2 & [more ->]).
    exists e2, ((ids ++ [i]) ++ more), s2. repeat split; auto. exists (i :: more). now rewrite <- app_assoc.
Qed.
End P.
