(* C222: packing and unpacking of fields by multiplication *)
From Coq Require Import ZArith Bool List Lia Permutation Sorted.
From Verif Require Import MultFieldModel ArrLib.
Import ListNotations.
Local Open Scope Z_scope.

(* what std::sort does *)
Definition sorts (sort : (nat -> nat -> bool) -> list nat -> list nat) : Prop :=
  forall less l, (forall a b, less a b = true -> less b a = false) -> (forall a b c, less a b = false -> less b c = false -> less a c = false) ->
  Permutation (sort less l) l /\ StronglySorted (fun a b => less b a = false) (sort less l).

Fixpoint total (l : list Z) : Z := match l with [] => 0 | x :: l => x + total l end.

(* Every multiplier is positive, and is more than what all other fields with the same multiplier or a lower one can
   contribute together.  There are no negative values, and the greatest compound value is representable. *)
Definition good_fields (bits offset : Z) (fields : list (Z * Z)) : Prop :=
  0 <= bits /\ 0 <= offset /\ (forall m x, In (m, x) fields -> 0 < m /\ 0 <= x) /\
  (forall a m x b, fields = a ++ (m, x) :: b ->
    total (map (fun f => if fst f <=? m then fst f * snd f else 0) (a ++ b)) < m) /\
  offset + total (map (fun f => fst f * snd f) fields) < 2 ^ bits.

Definition valid_components (fields : list (Z * Z)) (components : list Z) : Prop :=
  Forall2 (fun f c => 0 <= c <= snd f) fields components.

(* the contribution of each field *)
Definition compound_value (offset : Z) (fields : list (Z * Z)) (components : list Z) : Z :=
  offset + total (map (fun fc => fst (fst fc) * snd fc) (combine fields components)).

Lemma total_app : forall a b, total (a ++ b) = total a + total b.
Proof. induction a as [|x a IH]; intros b; cbn [app total]; [lia|]. rewrite IH. lia. Qed.

Lemma total_perm : forall a b, Permutation a b -> total a = total b.
Proof. intros a b P. induction P; cbn [total] in *; lia. Qed.

Lemma valid_length : forall fields cs, valid_components fields cs -> length cs = length fields.
Proof. intros fields cs V. induction V; cbn; congruence. Qed.

Section Good.
Context (bits offset : Z) (fields : list (Z * Z)) (order : list nat).
Context (G : good_fields bits offset fields).
Context (P : Permutation order (seq 0 (length fields))).
Let s := FSpec bits offset (map fst fields) (map snd fields) order.
Let mul i := nth i (map fst fields) 0.
Let mx i := nth i (map snd fields) 0.

Lemma pack_right : forall cs fs val, Forall2 (fun f c => 0 <= c <= snd f) fs cs -> (forall f, In f fs -> 0 < fst f) -> 0 <= val ->
  val + total (map (fun f => fst f * snd f) fs) < 2 ^ bits ->
  pack_loop s cs (map fst fs) val = Some (val + total (map (fun fc => fst (fst fc) * snd fc) (combine fs cs))).
Proof.
  intros cs fs val F. revert val. induction F as [|[m x] c fs cs H F IH]; intros val M V B; cbn [map pack_loop combine total fst snd] in *.
  - f_equal. lia.
  - pose proof (M _ (or_introl eq_refl)) as M0. cbn in M0.
    assert (T : 0 <= total (map (fun f => fst f * snd f) fs)).
    { clear IH B. induction F as [|f c' fs cs H' F IHF]; [cbn; lia|]. cbn [map total].
      assert (0 < fst f) by (apply M; right; left; reflexivity).
      assert (0 <= total (map (fun f => fst f * snd f) fs)).
      { apply IHF. intros g [<-|I]; apply M; [left|right; right]; auto. }
      nia. }
    unfold wrapu at 1 2. cbn [s fs_bits]. rewrite (Z.mod_small (c * m)) by nia. rewrite Z.mod_small by nia.
    rewrite IH; [f_equal; lia| |nia|nia]. intros g I. apply M. right. exact I.
Qed.

Definition part (cs : list Z) (l : list nat) : Z := total (map (fun i => mul i * nth i cs 0) l).

Lemma unpack_right : forall cs l pre comps, valid_components fields cs -> order = pre ++ l ->
  StronglySorted (fun a b => mul b <= mul a) l -> length comps = length fields ->
  (forall i, In i pre -> nth_error comps i = nth_error cs i) ->
  exists comps', unpack_loop s l (part cs l) comps true = Some (comps', true) /\ length comps' = length fields /\
  (forall i, In i order -> nth_error comps' i = nth_error cs i).
Proof.
  intros cs l pre comps V. revert pre comps. induction l as [|j l IH]; intros pre comps E So L D.
  - exists comps. rewrite app_nil_r in E. subst pre. auto.
  - assert (Lc : length cs = length fields) by (apply valid_length, V).
    assert (J : (j < length fields)%nat).
    { assert (In j order) by (rewrite E; apply in_or_app; right; left; reflexivity).
      apply (Permutation_in _ P) in H. apply in_seq in H. lia. }
    apply StronglySorted_inv in So. destruct So as (So & Lo).
    destruct (nth_error fields j) as [[m x]|] eqn:Ej; [|apply nth_error_None in Ej; lia].
    assert (Mj : mul j = m). { unfold mul. apply nth_error_nth, (map_nth_error fst _ _ Ej). }
    destruct (nth_error cs j) as [c|] eqn:Ec; [|apply nth_error_None in Ec; lia].
    assert (Cj : nth j cs 0 = c) by (apply nth_error_nth, Ec).
    assert (VV : forall i f, nth_error fields i = Some f -> 0 <= nth i cs 0 <= snd f).
    { clear - V. induction V as [|f c fs cs H V IH]; intros [|i] g K; try discriminate K; cbn in *.
      - injection K as <-. exact H. - apply (IH i g K). }
    destruct G as (_ & _ & GP & GS & _).
    assert (PP : 0 < m /\ 0 <= x) by (apply GP, (nth_error_In _ _ Ej)).
    (* the rest is less than the multiplier *)
    assert (R : 0 <= part cs l < m).
    { destruct (nth_error_split _ _ Ej) as (a & b & Ef & La).
      pose proof (GS a m x b Ef) as Q.
      assert (ND : NoDup order) by (apply (Permutation_NoDup (Permutation_sym P)), seq_NoDup).
      set (w := fun i => match nth_error fields i with Some f => if fst f <=? m then fst f * snd f else 0 | None => 0 end).
      assert (W0 : forall i, 0 <= w i).
      { intros i. unfold w. destruct (nth_error fields i) as [[p q]|] eqn:K; [|lia]. cbn. apply nth_error_In, GP in K. destruct (p <=? m); nia. }
      assert (T0 : forall l, 0 <= total (map w l)).
      { induction l0 as [|i l0 IHl]; cbn; [lia|]. pose proof (W0 i). lia. }
      assert (WS : forall fs k, (forall i f, nth_error fs i = Some f -> nth_error fields (k + i) = Some f) ->
        total (map w (seq k (length fs))) = total (map (fun f => if fst f <=? m then fst f * snd f else 0) fs)).
      { induction fs as [|f fs IHf]; intros k K; [reflexivity|]. cbn [length seq map total].
        pose proof (IHf (S k)) as I2. rewrite I2.
        - f_equal. unfold w. pose proof (K 0%nat f eq_refl) as K0. rewrite Nat.add_0_r in K0. rewrite K0. reflexivity.
        - intros i g N. rewrite Nat.add_succ_comm. apply K. exact N. }
      assert (T1 : total (map w order) = total (map (fun f => if fst f <=? m then fst f * snd f else 0) fields)).
      { rewrite <- (WS fields 0%nat) by auto. apply total_perm, Permutation_map, P. }
      assert (Wj : w j = m * x). { unfold w. rewrite Ej. cbn. rewrite Z.leb_refl. reflexivity. }
      assert (T2 : total (map w l) <= total (map (fun f => if fst f <=? m then fst f * snd f else 0) (a ++ b))).
      { rewrite E, map_app, total_app in T1. cbn [map total] in T1. rewrite Wj, Ef, map_app, total_app in T1.
        cbn [map total fst snd] in T1. rewrite Z.leb_refl in T1. rewrite map_app, total_app.
        pose proof (T0 pre). lia. }
      assert (T3 : 0 <= part cs l <= total (map w l)).
      { assert (IL : forall i, In i l -> (i < length fields)%nat).
        { intros i I. assert (K : In i order) by (rewrite E; apply in_or_app; right; right; exact I).
          apply (Permutation_in _ P), in_seq in K. lia. }
        clear - Lo IL VV GP Mj. unfold part. induction l as [|i l IHl]; [cbn; lia|]. cbn [map total].
        inversion Lo as [|? ? L1 L2]; subst. specialize (IHl L2 (fun k I => IL k (or_intror I))).
        pose proof (IL i (or_introl eq_refl)) as Li.
        destruct (nth_error fields i) as [[p q]|] eqn:K; [|apply nth_error_None in K; lia].
        assert (Mi : mul i = p). { unfold mul. apply nth_error_nth, (map_nth_error fst _ _ K). }
        assert (Wi : w i = p * q).
        { unfold w. rewrite K. cbn [fst snd]. destruct (Z.leb_spec p (mul j)); [reflexivity|lia]. }
        pose proof (VV i _ K) as Vi. cbn [snd] in Vi. pose proof (GP p q (nth_error_In _ _ K)). rewrite Wi, Mi.
        nia. }
      lia. }
    assert (EP : part cs (j :: l) = c * m + part cs l).
    { unfold part. cbn [map total]. rewrite Mj, Cj. lia. }
    cbn [unpack_loop]. unfold s at 1. cbn [m_mult]. rewrite (map_nth_error fst _ _ Ej). cbn [obind fst].
    destruct (Z.eqb_spec m 0) as [Z0|_]; [lia|].
    assert (DV : part cs (j :: l) / m = c). { rewrite EP. symmetry. apply Z.div_unique with (r := part cs l); lia. }
    assert (MV : part cs (j :: l) mod m = part cs l). { rewrite EP. symmetry. apply Z.mod_unique with (q := c); lia. }
    rewrite DV, MV. destruct (set_nth comps j c) as [comps2|] eqn:ES.
    2: { rewrite set_nth_some in ES by lia. discriminate. }
    cbn [obind]. unfold s at 1. cbn [m_max]. rewrite (map_nth_error snd _ _ Ej). cbn [obind snd].
    pose proof (VV j _ Ej) as Vj. rewrite Cj in Vj. cbn [snd] in Vj. destruct (Z.leb_spec c x); [|lia]. cbn [andb].
    apply (IH (pre ++ [j]) comps2); [rewrite <- app_assoc; exact E|exact So|rewrite (set_nth_length _ _ _ _ ES); exact L|].
    intros i I. rewrite (nth_error_set_nth _ _ _ _ i ES). destruct (Nat.eqb_spec i j) as [->|N]; [symmetry; exact Ec|].
    apply in_app_or in I. destruct I as [I|[I|[]]]; [apply D, I|congruence].
Qed.
End Good.

Lemma order_right : forall sort (fields : list (Z * Z)), sorts sort ->
  let order := sort (fun a b => nth b (map fst fields) 0 <? nth a (map fst fields) 0) (seq 0 (length fields)) in
  Permutation order (seq 0 (length fields)) /\
  StronglySorted (fun a b => nth b (map fst fields) 0 <= nth a (map fst fields) 0) order.
Proof.
  intros sort fields So order. destruct (So (fun a b => nth b (map fst fields) 0 <? nth a (map fst fields) 0) (seq 0 (length fields))) as (P & S).
  - intros a b H. apply Z.ltb_lt in H. apply Z.ltb_ge. lia.
  - intros a b c. rewrite !Z.ltb_ge. lia.
  - split; [exact P|]. fold order in S. induction S as [|a l S IH F]; constructor; [exact IH|].
    eapply Forall_impl; [|exact F]. cbn. intros b H. apply Z.ltb_ge in H. exact H.
Qed.

(* C222: unpacking gets back the components that were packed, whatever the order is of fields with the same multiplier *)
Theorem mult_round_trip : forall sort bits offset fields components init, sorts sort -> good_fields bits offset fields ->
  valid_components fields components -> length init = length fields ->
  exists compound, pack (fs_make sort bits offset fields) components = Some compound /\
  compound = compound_value offset fields components /\
  unpack (fs_make sort bits offset fields) compound init = Some components.
Proof.
  intros sort bits offset fields cs init So G V L. destruct (order_right sort fields So) as (P & S).
  exists (compound_value offset fields cs). pose proof G as (G0 & G1 & GP & _ & GT).
  assert (PK : pack (fs_make sort bits offset fields) cs = Some (compound_value offset fields cs)).
  { unfold pack, fs_make. cbn [m_mult m_offset]. apply pack_right; try assumption.
    intros [m x] I. apply GP in I. cbn. lia. }
  split; [exact PK|]. split; [reflexivity|]. unfold unpack, fs_make, wrapu. cbn [m_offset m_order fs_bits]. unfold compound_value.
  set (T := total (map (fun fc => fst (fst fc) * snd fc) (combine fields cs))).
  assert (B : 0 <= T <= total (map (fun f => fst f * snd f) fields)).
  { unfold T. clear - V GP. induction V as [|[m x] c fs cs H V IH]; [cbn; lia|]. cbn [map combine total fst snd] in *.
    pose proof (GP m x (or_introl eq_refl)). specialize (IH (fun m x I => GP m x (or_intror I))). nia. }
  replace (offset + T - offset) with T by lia. rewrite Z.mod_small by lia. destruct (Z.leb_spec offset (offset + T)); [|lia].
  set (order := sort _ _) in *.
  assert (E : T = part fields cs order).
  { unfold part. rewrite (total_perm _ _ (Permutation_map _ P)). unfold T.
    assert (K : forall fs cs' k, Forall2 (fun f c => 0 <= c <= snd f) fs cs' ->
      (forall i f, nth_error fs i = Some f -> nth (k + i) (map fst fields) 0 = fst f) ->
      (forall i c, nth_error cs' i = Some c -> nth (k + i) cs 0 = c) ->
      total (map (fun fc => fst (fst fc) * snd fc) (combine fs cs')) =
      total (map (fun i => nth i (map fst fields) 0 * nth i cs 0) (seq k (length fs)))).
    { intros fs cs' k F. revert k. induction F as [|f c fs cs' H' F IH]; intros k K1 K2; [reflexivity|].
      cbn [combine map length seq total fst snd]. rewrite (IH (Datatypes.S k)).
      - pose proof (K1 0%nat f eq_refl) as A1. pose proof (K2 0%nat c eq_refl) as A2. rewrite Nat.add_0_r in A1, A2.
        rewrite A1, A2. reflexivity.
      - intros i g N. rewrite Nat.add_succ_comm. apply K1. exact N.
      - intros i g N. rewrite Nat.add_succ_comm. apply K2. exact N. }
    apply (K fields cs 0%nat V).
    - intros i f N. apply nth_error_nth, (map_nth_error fst _ _ N).
    - intros i c N. apply nth_error_nth, N. }
  rewrite E. destruct (unpack_right bits offset fields order G P cs order [] init V eq_refl S L) as (comps & U & L2 & D).
  { intros i []. }
  rewrite U. cbn [obind]. f_equal.
  assert (X : forall i, nth_error comps i = nth_error cs i).
  { intros i. destruct (Nat.lt_ge_cases i (length fields)) as [I|I].
    - apply D. apply (Permutation_in _ (Permutation_sym P)), in_seq. lia.
    - pose proof (valid_length _ _ V). rewrite !(proj2 (nth_error_None _ _)) by lia. reflexivity. }
  clear - X. revert cs X. induction comps as [|a l IH]; intros [|c cs] X; try reflexivity.
  - discriminate (X 0%nat). - discriminate (X 0%nat).
  - pose proof (X 0%nat) as X0. injection X0 as ->. f_equal. apply IH. intros i. exact (X (Datatypes.S i)).
Qed.

(* whatever the compound value is, unpacking gives valid components *)
Theorem mult_unpack_valid : forall sort bits offset fields compound init, sorts sort -> 0 <= bits ->
  (forall m x, In (m, x) fields -> 0 < m /\ 0 <= x) -> length init = length fields ->
  exists components, unpack (fs_make sort bits offset fields) compound init = Some components /\
  valid_components fields components.
Proof.
  intros sort bits offset fields compound init So B GP L. destruct (order_right sort fields So) as (P & _).
  unfold unpack, fs_make, wrapu. cbn [m_offset m_order fs_bits]. set (order := sort _ _) in *.
  set (s := FSpec bits offset (map fst fields) (map snd fields) order).
  assert (K : forall l pre comps val good, order = pre ++ l -> 0 <= val -> length comps = length fields ->
    (good = true -> forall i f, In i pre -> nth_error fields i = Some f -> 0 <= nth i comps 0 <= snd f) ->
    exists comps' good', unpack_loop s l val comps good = Some (comps', good') /\ length comps' = length fields /\
    (good' = true -> forall i f, In i order -> nth_error fields i = Some f -> 0 <= nth i comps' 0 <= snd f)).
  { induction l as [|j l IH]; intros pre comps val good E Hv Lc D.
    - exists comps, good. rewrite app_nil_r in E. rewrite E. auto.
    - assert (J : (j < length fields)%nat).
      { assert (I : In j order) by (rewrite E; apply in_or_app; right; left; reflexivity).
        apply (Permutation_in _ P), in_seq in I. lia. }
      destruct (nth_error fields j) as [[m x]|] eqn:Ej; [|apply nth_error_None in Ej; lia].
      destruct (GP m x (nth_error_In _ _ Ej)) as (M & X).
      cbn [unpack_loop]. unfold s at 1. cbn [m_mult]. rewrite (map_nth_error fst _ _ Ej). cbn [obind fst].
      destruct (Z.eqb_spec m 0) as [Z0|_]; [lia|]. destruct (set_nth comps j (val / m)) as [comps2|] eqn:ES.
      2: { rewrite set_nth_some in ES by lia. discriminate. }
      cbn [obind]. unfold s at 1. cbn [m_max]. rewrite (map_nth_error snd _ _ Ej). cbn [obind snd].
      apply (IH (pre ++ [j])).
      + rewrite <- app_assoc. exact E.
      + apply Z.mod_pos_bound. lia.
      + rewrite (set_nth_length _ _ _ _ ES). exact Lc.
      + intros Gd i f I N. apply andb_true_iff in Gd. destruct Gd as (Gd & Le). apply Z.leb_le in Le.
        assert (NE : nth_error comps2 i = if Nat.eqb i j then Some (val / m) else nth_error comps i) by apply (nth_error_set_nth _ _ _ _ i ES).
        destruct (Nat.eqb_spec i j) as [->|Nij].
        * rewrite (nth_error_nth _ _ 0 NE). rewrite Ej in N. injection N as <-. cbn [snd]. split; [apply Z.div_pos; lia|exact Le].
        * apply in_app_or in I. destruct I as [I|[I|[]]]; [|congruence].
          destruct (nth_error comps i) as [y|] eqn:Ey.
          -- rewrite (nth_error_nth _ _ 0 NE). rewrite <- (nth_error_nth _ _ 0 Ey). exact (D Gd i f I N).
          -- apply nth_error_None in Ey. assert (i < length fields)%nat by (apply nth_error_Some; congruence). lia. }
  destruct (K order [] init ((compound - offset) mod 2 ^ bits) (offset <=? compound) eq_refl) as (comps & good & U & L2 & D).
  { apply Z.mod_pos_bound. apply Z.pow_pos_nonneg; lia. } { exact L. } { intros _ i f []. }
  rewrite U. cbn [obind].
  assert (F : forall fs cs, length cs = length fs -> (forall i f, nth_error fs i = Some f -> 0 <= nth i cs 0 <= snd f) ->
    valid_components fs cs).
  { induction fs as [|f fs IHf]; intros [|c cs] Lf N; try discriminate Lf; constructor.
    - exact (N 0%nat f eq_refl).
    - apply IHf; [cbn in Lf; lia|]. intros i g Ni. exact (N (Datatypes.S i) g Ni). }
  destruct good; eexists; (split; [reflexivity|]); apply F.
  - exact L2.
  - intros i f N. apply (D eq_refl i f); [|exact N]. apply (Permutation_in _ (Permutation_sym P)), in_seq.
    assert (i < length fields)%nat by (apply nth_error_Some; congruence). lia.
  - rewrite map_length. exact L2.
  - intros i [m x] N. apply nth_error_In, GP in N. assert (Z0 : nth i (map (fun _ : Z => 0) comps) 0 = 0).
    { clear. revert i. induction comps as [|a l IH]; intros [|i]; cbn; auto. }
    rewrite Z0. cbn. lia.
Qed.

(* the same with a permutation of the compound values; the compound values are positions in the list of color indexes *)
Theorem perm_round_trip : forall sort bits offset fields components init perm rev_perm, sorts sort ->
  good_fields bits offset fields -> valid_components fields components -> length init = length fields ->
  (forall k index, nth_error perm k = Some index -> 0 <= index < 2 ^ 16 /\ rev_find rev_perm index = Some (Z.of_nat k)) ->
  compound_value offset fields components < Z.of_nat (length perm) ->
  exists compound, perm_pack (fs_make sort bits offset fields) perm components = Some compound /\ In compound perm /\
  perm_unpack (fs_make sort bits offset fields) rev_perm compound init = Some components.
Proof.
  intros sort bits offset fields cs init perm rev So G V L R Lt.
  destruct (mult_round_trip sort bits offset fields cs init So G V L) as (c & Pk & Ev & Un).
  assert (C0 : 0 <= c).
  { rewrite Ev. unfold compound_value. destruct G as (_ & G1 & GP & _).
    assert (0 <= total (map (fun fc => fst (fst fc) * snd fc) (combine fields cs))); [|lia].
    clear - V GP. induction V as [|[m x] c fs cs H V IH]; [cbn; lia|]. cbn [map combine total fst snd] in *.
    pose proof (GP m x (or_introl eq_refl)). specialize (IH (fun m x I => GP m x (or_intror I))). nia. }
  unfold perm_pack. rewrite Pk. cbn [obind]. destruct (Z.ltb_spec c 0); [lia|].
  destruct (Z.leb_spec (Z.of_nat (length perm)) c); [lia|].
  destruct (nth_error perm (Z.to_nat c)) as [p|] eqn:E; [|apply nth_error_None in E; lia].
  exists p. split; [reflexivity|]. split; [exact (nth_error_In _ _ E)|]. destruct (R _ _ E) as (Rp & Rf). unfold perm_unpack.
  destruct (Z.leb_spec 0 p), (Z.ltb_spec p (2 ^ 16)); try lia. cbn [andb]. rewrite Rf, Z2Nat.id by lia. exact Un.
Qed.

Theorem perm_unpack_valid : forall sort bits offset fields compound init rev_perm, sorts sort -> 0 <= bits ->
  (forall m x, In (m, x) fields -> 0 < m /\ 0 <= x) -> length init = length fields ->
  exists components, perm_unpack (fs_make sort bits offset fields) rev_perm compound init = Some components /\
  valid_components fields components.
Proof.
  intros sort bits offset fields compound init rev So B GP L. unfold perm_unpack.
  destruct (if (0 <=? compound) && (compound <? 2 ^ 16) then rev_find rev compound else None) as [c2|].
  - apply mult_unpack_valid; assumption.
  - eexists. split; [reflexivity|]. clear - GP L. revert init L. induction fields as [|[m x] fs IH]; intros [|y init] L; try discriminate L; constructor.
    + destruct (GP m x (or_introl eq_refl)). cbn. lia.
    + apply IH; [intros; apply GP; right; assumption|]. cbn in L. lia.
Qed.

(* a function that sorts *)
Fixpoint insert (less : nat -> nat -> bool) (x : nat) (l : list nat) : list nat :=
  match l with [] => [x] | y :: l => if less y x then y :: insert less x l else x :: y :: l end.
Definition isort (less : nat -> nat -> bool) (l : list nat) : list nat := fold_right (insert less) [] l.

Lemma isort_sorts : sorts isort.
Proof.
  intros less l A T.
  assert (IP : forall x l, Permutation (insert less x l) (x :: l)).
  { intros x. induction l0 as [|y l0 IH]; cbn; [reflexivity|]. destruct (less y x); [|reflexivity].
    rewrite IH. apply perm_swap. }
  split.
  - induction l as [|x l IH]; cbn; [constructor|]. rewrite IP. constructor. exact IH.
  - induction l as [|x l IH]; cbn; [constructor|]. fold (isort less l). revert IH. generalize (isort less l). clear l.
    induction l as [|y l IH]; intros So; cbn; [repeat constructor|].
    apply StronglySorted_inv in So. destruct So as (So & F). destruct (less y x) eqn:E.
    + constructor; [exact (IH So)|]. rewrite (IP x l). constructor; [exact (A _ _ E)|exact F].
    + constructor; [constructor; assumption|]. constructor; [exact E|].
      eapply Forall_impl; [|exact F]. cbn. intros b Hb. exact (T b y x Hb E).
Qed.

(* 2 bits of the first, 3 values of the second, and 4 of the third, like in a standard colormap *)
Example mult_round_trip_case : let fields := [(1, 3); (12, 4); (4, 2)] in
  good_fields 32 100 fields /\ valid_components fields [2; 3; 1] /\
  pack (fs_make isort 32 100 fields) [2; 3; 1] = Some 142 /\
  unpack (fs_make isort 32 100 fields) 142 [9; 9; 9] = Some [2; 3; 1] /\
  unpack (fs_make isort 32 100 fields) 99 [9; 9; 9] = Some [0; 0; 0] /\
  unpack (fs_make isort 32 100 fields) 160 [9; 9; 9] = Some [0; 0; 0].
Proof.
  cbv zeta. split; [|split; [repeat constructor; cbn; lia|repeat split; vm_compute; reflexivity]].
  unfold good_fields. split; [lia|]. split; [lia|]. split.
  - intros m x [E|[E|[E|[]]]]; injection E as <- <-; lia.
  - split; [|vm_compute; reflexivity]. intros a m x b E.
    destruct a as [|f1 [|f2 [|f3 a]]]; try (injection E as <- <- <-; vm_compute; reflexivity);
      try (injection E as <- <- <- <-; vm_compute; reflexivity); try (injection E as <- <- <- <- <-; vm_compute; reflexivity).
    exfalso. apply (f_equal (@length _)) in E. cbn in E. rewrite app_length in E. cbn in E. lia.
Qed.

Example perm_round_trip_case : let fields := [(1, 1); (2, 1)] in let perm := [7; 300; 5; 6] in
  let rev_perm := [(5, 2); (6, 3); (7, 0); (300, 1)] in
  good_fields 32 0 fields /\ valid_components fields [1; 0] /\
  Forall (fun k => match nth_error perm k with
                   | Some i => (0 <=? i) && (i <? 2 ^ 16) = true /\ rev_find rev_perm i = Some (Z.of_nat k)
                   | None => False end) [0; 1; 2; 3]%nat /\
  perm_pack (fs_make isort 32 0 fields) perm [1; 0] = Some 300 /\
  perm_unpack (fs_make isort 32 0 fields) rev_perm 300 [9; 9] = Some [1; 0] /\
  perm_unpack (fs_make isort 32 0 fields) rev_perm 8 [9; 9] = Some [0; 0].
Proof.
  cbv zeta. split.
  - unfold good_fields. split; [lia|]. split; [lia|]. split.
    + intros m x [E|[E|[]]]; injection E as <- <-; lia.
    + split; [|vm_compute; reflexivity]. intros a m x b E.
      destruct a as [|f1 [|f2 a]]; try (injection E as <- <- <-; vm_compute; reflexivity);
        try (injection E as <- <- <- <-; vm_compute; reflexivity).
      exfalso. apply (f_equal (@length _)) in E. cbn in E. rewrite app_length in E. cbn in E. lia.
  - split; [repeat constructor; cbn; lia|]. split; [repeat constructor|]. repeat split; vm_compute; reflexivity.
Qed.

Print Assumptions mult_round_trip.
Print Assumptions mult_unpack_valid.
Print Assumptions isort_sorts.
Print Assumptions perm_round_trip.
Print Assumptions perm_unpack_valid.
