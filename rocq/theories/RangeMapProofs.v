From Coq Require Import List ZArith Bool Lia Sorted ZifyBool.
From Verif Require Import ArrLib RangeMapModel RangeMapSpec.
Import ListNotations.
Open Scope Z_scope.

Section P.
Context {T : Type} (kmin kmax : Z) (default : T).
Notation entry := (Z * (Z * T))%type.
Implicit Types (A B : list entry) (e : entry).

Lemma nth_mid {X} (A : list X) (e : X) (B : list X) : nth_error (A ++ e :: B) (length A) = Some e.
Proof. now rewrite nth_error_app2, Nat.sub_diag by lia. Qed.
Lemma nth_end {X} (A : list X) : nth_error A (length A) = None.
Proof. apply nth_error_None. lia. Qed.

Lemma map_lower_bound_split A B k : Forall (fun e => fst e < k) A -> Forall (fun e => k <= fst e) B ->
  map_lower_bound (A ++ B) k = length A.
Proof.
  induction 1 as [|a A Ha _ IH]; intros HB; cbn.
  - destruct HB as [|b B Hb _]; [reflexivity|]. cbn. replace (fst b <? k) with false by lia. reflexivity.
  - replace (fst a <? k) with true by lia. now rewrite IH.
Qed.

Lemma map_insert_split A B k x : Forall (fun e => fst e < k) A -> Forall (fun e => k < fst e) B ->
  map_insert (A ++ B) (k, x) = (A ++ (k, x) :: B, length A, true).
Proof.
  intros HA HB. unfold map_insert. cbn [fst]. rewrite map_lower_bound_split; auto.
  2:{ eapply Forall_impl; [|exact HB]. cbn. intros; lia. }
  rewrite firstn_app, skipn_app, Nat.sub_diag, firstn_all, skipn_all. cbn [firstn skipn app]. rewrite app_nil_r.
  destruct HB as [|b B Hb HB].
  - rewrite app_nil_r, nth_end. reflexivity.
  - rewrite nth_mid. replace (fst b =? k) with false by lia. reflexivity.
Qed.

Lemma apply_func_mid f A k l v B : apply_func f (A ++ (k, (l, v)) :: B) (length A) = Some (A ++ (k, (l, f v)) :: B).
Proof. unfold apply_func. rewrite nth_mid. cbn [obind fst snd]. apply set_nth_app. Qed.
Lemma set_last_mid A k l v B x : set_last (A ++ (k, (l, v)) :: B) (length A) x = Some (A ++ (k, (x, v)) :: B).
Proof. unfold set_last. rewrite nth_mid. cbn [obind fst snd]. apply set_nth_app. Qed.
Lemma to_key_ok x : kmin <= x <= kmax -> to_key kmin kmax x = Some x.
Proof. intros H. unfold to_key. replace ((kmin <=? x) && (x <=? kmax)) with true by lia. reflexivity. Qed.

Lemma get_app A B k : rm_get (A ++ B) k = match rm_get A k with Some v => Some v | None => rm_get B k end.
Proof.
  induction A as [|[a [b v]] A IH]; [reflexivity|]. cbn. destruct ((a <=? k) && (k <=? b)); [reflexivity|apply IH].
Qed.
Lemma get_below B x k : Forall (fun e => x <= fst e) B -> k < x -> rm_get B k = None.
Proof.
  intros HB Hk. induction HB as [|[a [b v]] B Hb _ IH]; [reflexivity|]. cbn in *.
  replace (a <=? k) with false by lia. exact IH.
Qed.
Lemma get_above A x k : Forall (fun e => fst (snd e) < x) A -> x <= k -> rm_get A k = None.
Proof.
  intros HA Hk. induction HA as [|[a [b v]] A Ha _ IH]; [reflexivity|]. cbn in *.
  replace (k <=? b) with false by lia. rewrite andb_false_r. exact IH.
Qed.

Notation ok := (@rm_ok T kmin kmax).
Lemma ok_nil : ok []. Proof. split; constructor. Qed.
Lemma ok_cons e B : ok (e :: B) <-> (kmin <= fst e <= fst (snd e) /\ fst (snd e) <= kmax) /\ ok B /\
  Forall (fun b => fst (snd e) < fst b) B.
Proof.
  unfold rm_ok. split.
  - intros [H1 H2]. inversion H1; inversion H2; subst. auto.
  - intros (H1 & (H2 & H3) & H4). split; constructor; auto.
Qed.
Lemma ok_app A B : ok (A ++ B) <-> ok A /\ ok B /\ (forall a b, In a A -> In b B -> fst (snd a) < fst b).
Proof.
  induction A as [|a A IH]; cbn [app].
  - split; [intros H; split; [apply ok_nil|split; [assumption|intros ? ? []]]|tauto].
  - rewrite !ok_cons, IH, Forall_app. setoid_rewrite Forall_forall. cbn [In]. split.
    + intros (H1 & (H2 & H3 & H4) & H5 & H6). split; [tauto|]. split; [assumption|]. intros x y [<-|Hx] Hy; auto.
    + intros ((H1 & H2 & H3) & H4 & H5). split; [assumption|]. split; [split; [assumption|split; [assumption|]]|split]; auto.
Qed.
Lemma ok_join A B x : ok A -> ok B -> Forall (fun e => fst (snd e) < x) A -> Forall (fun e => x <= fst e) B -> ok (A ++ B).
Proof.
  intros HA HB FA FB. apply ok_app. split; [assumption|]. split; [assumption|].
  rewrite Forall_forall in *. intros a b Ha Hb. specialize (FA a Ha). specialize (FB b Hb). cbn in *. lia.
Qed.
Lemma ok_firsts A x : ok A -> Forall (fun e => fst (snd e) < x) A -> Forall (fun e => fst e < x) A.
Proof.
  intros [H _] F. rewrite Forall_forall in *. intros a Ha. specialize (H a Ha). specialize (F a Ha). cbn in *. lia.
Qed.
Lemma ok_lasts_last A k l v : ok (A ++ [(k, (l, v))]) -> Forall (fun e => fst (snd e) < l + 1) (A ++ [(k, (l, v))]).
Proof.
  rewrite ok_app, ok_cons. cbn [fst snd]. intros (H1 & (H2 & _) & H3). apply Forall_app. split.
  - apply Forall_forall. intros a Ha. specialize (H3 a (k, (l, v)) Ha (or_introl eq_refl)). cbn in H3. lia.
  - constructor; [cbn; lia|constructor].
Qed.
Lemma Forall_le_mono B x y : x <= y -> Forall (fun e => y <= fst e) B -> Forall (fun e => x <= fst e) B.
Proof. intros H. apply Forall_impl. intros; lia. Qed.
Lemma Forall_lt_mono A x y : x <= y -> Forall (fun e => fst (snd e) < x) A -> Forall (fun e => fst (snd e) < y) A.
Proof. intros H. apply Forall_impl. intros; lia. Qed.

Definition oval (o : option T) : T := match o with Some v => v | None => default end.
Definition updated (f : T -> T) (first last : Z) (B B' : list entry) : Prop :=
  forall k, rm_get B' k = if (first <=? k) && (k <=? last) then Some (f (oval (rm_get B k))) else rm_get B k.

Lemma update_tail_spec f A B first last : ok A -> ok B ->
  kmin <= first <= last -> last <= kmax ->
  Forall (fun e => fst (snd e) < first) A -> Forall (fun e => last < fst e) B ->
  exists B', update_tail default f (A ++ B) first last = Some (A ++ B') /\ ok B' /\
    Forall (fun e => first <= fst e) B' /\ updated f first last B B'.
Proof.
  intros OA OB H1 H2 FA FB. unfold update_tail.
  rewrite map_insert_split.
  - rewrite apply_func_mid. eexists. split; [reflexivity|]. split; [|split].
    + apply ok_cons. cbn [fst snd]. auto.
    + constructor; [cbn; lia|]. eapply Forall_impl; [|exact FB]. cbn; intros; lia.
    + intros k. cbn [rm_get]. destruct (Z.leb_spec first k), (Z.leb_spec k last); try reflexivity.
      cbn [andb]. rewrite (get_below B (last + 1) k); [reflexivity| |lia].
      eapply Forall_impl; [|exact FB]. cbn; intros; lia.
  - apply ok_firsts; assumption.
  - eapply Forall_impl; [|exact FB]. cbn; intros; lia.
Qed.

Lemma shift_pos_le i j : (j <= i)%nat -> shift_pos i j true = S i.
Proof. intros H. unfold shift_pos. replace (j <=? i)%nat with true by lia. reflexivity. Qed.
Lemma shift_pos_gt i j : (i < j)%nat -> shift_pos i j true = i.
Proof. intros H. unfold shift_pos. replace (j <=? i)%nat with false by lia. reflexivity. Qed.

Lemma update_loop_spec f fuel : forall A B first last, ok A -> ok B ->
  kmin <= first <= last -> last <= kmax ->
  Forall (fun e => fst (snd e) < first) A -> Forall (fun e => first <= fst e) B ->
  (length B < fuel)%nat ->
  exists B', update_loop kmin kmax default fuel f (A ++ B) (length A) first last = Some (A ++ B') /\ ok B' /\
    Forall (fun e => first <= fst e) B' /\ updated f first last B B'.
Proof.
  induction fuel as [|fuel IH]; intros A B first last OA OB H1 H2 FA FB Hf; [lia|].
  cbn [update_loop]. destruct B as [|[ef [el v]] B].
  - rewrite app_nil_r, nth_end. pose proof (update_tail_spec f A [] first last OA OB H1 H2 FA ltac:(constructor)) as X. now rewrite app_nil_r in X.
  - rewrite nth_mid. cbn [fst].
    pose proof OB as OB'. apply ok_cons in OB'. cbn [fst snd] in OB'. destruct OB' as (He & OB1 & FB1).
    assert (Hef : first <= ef) by (inversion FB; assumption).
    destruct (Z.ltb_spec last ef).
    { apply update_tail_spec; auto. constructor; [assumption|]. eapply Forall_impl; [|exact FB1]. cbn; intros; lia. }
    (* the part after the optional insertion *)
    assert (MID : forall A1, ok A1 -> Forall (fun e => fst (snd e) < ef) A1 ->
      exists B',
        (let? ei := nth_error (A1 ++ (ef, (el, v)) :: B) (length A1) in
         let i_last := fst (snd ei) in
         if last <? i_last then
           let? first' := to_key kmin kmax (last + 1) in
           let '(m1, j, is_new) := map_insert (A1 ++ (ef, (el, v)) :: B) (first', snd ei) in
           let i := shift_pos (length A1) j is_new in
           let? m2 := set_last m1 i last in
           apply_func f m2 i
         else
           let? m := apply_func f (A1 ++ (ef, (el, v)) :: B) (length A1) in
           if last =? i_last then Some m
           else
             let? first' := to_key kmin kmax (i_last + 1) in
             update_loop kmin kmax default fuel f m (S (length A1)) first' last) = Some (A1 ++ B') /\
        ok B' /\ Forall (fun e => ef <= fst e) B' /\ updated f ef last ((ef, (el, v)) :: B) B').
    { intros A1 OA1 FA1. rewrite nth_mid. cbn [obind fst snd].
      destruct (Z.ltb_spec last el).
      - rewrite to_key_ok by lia. cbn [obind].
        replace (A1 ++ (ef, (el, v)) :: B) with ((A1 ++ [(ef, (el, v))]) ++ B) by now rewrite <- app_assoc.
        rewrite map_insert_split.
        + rewrite shift_pos_gt by (rewrite app_length; cbn; lia).
          rewrite <- app_assoc. cbn [app]. rewrite set_last_mid. cbn [obind]. rewrite apply_func_mid.
          eexists. split; [reflexivity|]. split; [|split].
          * apply ok_cons. cbn [fst snd]. split; [lia|]. split.
            -- apply ok_cons. cbn [fst snd]. split; [lia|]. auto.
            -- constructor; [cbn; lia|]. eapply Forall_impl; [|exact FB1]. cbn; intros; lia.
          * constructor; [cbn; lia|]. constructor; [cbn; lia|]. eapply Forall_impl; [|exact FB1]. cbn; intros; lia.
          * intros k. cbn [rm_get].
            destruct (Z.leb_spec ef k), (Z.leb_spec k last), (Z.leb_spec k el), (Z.leb_spec (last + 1) k); cbn [andb oval]; try lia; try reflexivity.
        + apply Forall_app. split; [|constructor; [cbn; lia|constructor]].
          apply ok_firsts; [assumption|]. eapply Forall_lt_mono; [|exact FA1]. lia.
        + eapply Forall_impl; [|exact FB1]. cbn; intros; lia.
      - rewrite apply_func_mid. cbn [obind]. destruct (Z.eqb_spec last el) as [->|].
        + eexists. split; [reflexivity|]. split; [|split].
          * apply ok_cons. cbn [fst snd]. auto.
          * constructor; [cbn; lia|]. eapply Forall_impl; [|exact FB1]. cbn; intros; lia.
          * intros k. cbn [rm_get].
            destruct (Z.leb_spec ef k), (Z.leb_spec k el); cbn [andb oval]; try reflexivity.
        + rewrite to_key_ok by lia. cbn [obind].
          destruct (IH (A1 ++ [(ef, (el, f v))]) B (el + 1) last) as (B1 & E1 & OB1' & FB1' & U); auto; try lia.
          * apply (ok_join _ _ ef); auto.
            -- apply ok_cons. cbn [fst snd]. split; [lia|]. split; [apply ok_nil|constructor].
            -- constructor; [cbn; lia|constructor].
          * apply Forall_app. split; [eapply Forall_lt_mono; [|exact FA1]; lia|constructor; [cbn; lia|constructor]].
          * eapply Forall_impl; [|exact FB1]. cbn; intros; lia.
          * cbn in Hf. lia.
          * rewrite app_length in E1. cbn [length] in E1. rewrite Nat.add_1_r in E1.
            rewrite <- !app_assoc in E1. cbn [app] in E1. rewrite E1.
            eexists. split; [reflexivity|]. split; [|split].
            -- apply ok_cons. cbn [fst snd]. split; [lia|]. split; [assumption|].
               eapply Forall_impl; [|exact FB1']. cbn; intros; lia.
            -- constructor; [cbn; lia|]. eapply Forall_impl; [|exact FB1']. cbn; intros; lia.
            -- intros k. cbn [rm_get]. rewrite (U k).
               destruct (Z.leb_spec ef k), (Z.leb_spec k el), (Z.leb_spec k last), (Z.leb_spec (el + 1) k); cbn [andb oval]; try lia; try reflexivity. }
    destruct (Z.ltb_spec first ef).
    + rewrite to_key_ok by lia. cbn [obind].
      rewrite map_insert_split.
      2:{ apply ok_firsts; assumption. }
      2:{ constructor; [cbn; lia|]. eapply Forall_impl; [|exact FB1]. cbn; intros; lia. }
      rewrite apply_func_mid. cbn [obind]. rewrite shift_pos_le by lia.
      destruct (MID (A ++ [(first, (ef - 1, f default))])) as (B' & E' & OB' & FB' & U).
      { apply (ok_join _ _ first); auto.
        - apply ok_cons. cbn [fst snd]. split; [lia|]. split; [apply ok_nil|constructor].
        - constructor; [cbn; lia|constructor]. }
      { apply Forall_app. split; [eapply Forall_lt_mono; [|exact FA]; lia|constructor; [cbn; lia|constructor]]. }
      rewrite app_length in E'. cbn [length] in E'. rewrite Nat.add_1_r in E'.
      rewrite <- !app_assoc in E'. cbn [app] in E'. rewrite E'.
      eexists. split; [reflexivity|]. split; [|split].
      * apply ok_cons. cbn [fst snd]. split; [lia|]. split; [assumption|].
        eapply Forall_impl; [|exact FB']. cbn; intros; lia.
      * constructor; [cbn; lia|]. eapply Forall_impl; [|exact FB']. cbn; intros; lia.
      * intros k. cbn [rm_get]. rewrite (U k). cbn [rm_get].
        destruct (Z.leb_spec first k), (Z.leb_spec k (ef - 1)), (Z.leb_spec ef k), (Z.leb_spec k last); cbn [andb oval]; try lia; try reflexivity.
        rewrite (get_below B ef k); [reflexivity| |lia]. eapply Forall_impl; [|exact FB1]. cbn; intros; lia.
    + cbn [obind]. assert (first = ef) by lia. subst first. apply MID; assumption.
Qed.

Lemma split_at m x : ok m -> exists A B, m = A ++ B /\ Forall (fun e => fst e < x) A /\ Forall (fun e => x <= fst e) B.
Proof.
  induction m as [|e m IH]; intros H; [exists [], []; repeat split; constructor|].
  apply ok_cons in H. destruct H as (He & Hm & F).
  destruct (Z.lt_ge_cases (fst e) x) as [Hx|Hx].
  - destruct (IH Hm) as (A & B & -> & FA & FB). exists (e :: A), B. repeat split; auto.
  - exists [], (e :: m). repeat split; auto. constructor; [lia|]. eapply Forall_impl; [|exact F]. cbn; intros; lia.
Qed.

Lemma rm_update_spec f m first last : ok m -> kmin <= first <= last -> last <= kmax ->
  exists m', rm_update kmin kmax default f m first last = Some m' /\ ok m' /\ updated f first last m m'.
Proof.
  intros Hm H1 H2. unfold rm_update. replace (negb (first <=? last)) with false by lia.
  destruct (split_at m first Hm) as (A & B & -> & FA & FB).
  rewrite map_lower_bound_split by assumption.
  apply ok_app in Hm. destruct Hm as (OA & OB & C).
  assert (FIN : forall A B, ok A -> ok B -> Forall (fun e => fst (snd e) < first) A -> Forall (fun e => first <= fst e) B ->
    exists m', update_loop kmin kmax default (S (length (A ++ B))) f (A ++ B) (length A) first last = Some m' /\
      ok m' /\ updated f first last (A ++ B) m').
  { clear A B OA OB C FA FB. intros A B OA OB FA FB.
    destruct (update_loop_spec f (S (length (A ++ B))) A B first last) as (B' & E & O' & F' & U); auto.
    { rewrite app_length. lia. }
    exists (A ++ B'). split; [exact E|]. split; [apply (ok_join _ _ first); auto|].
    intros k. rewrite !get_app, (U k).
    destruct (rm_get A k) eqn:G; [|reflexivity].
    destruct (Z.leb_spec first k); [|reflexivity].
    rewrite (get_above A first k) in G by assumption. discriminate. }
  destruct A as [|a0 A0] using rev_ind; [cbn [length Nat.eqb obind]; apply FIN; auto|clear IHA0].
  destruct a0 as [jf [jl v]].
  replace (length (A0 ++ [(jf, (jl, v))])) with (S (length A0)) by (rewrite app_length; cbn; lia).
  cbn [Nat.eqb Nat.pred]. rewrite <- app_assoc. cbn [app]. rewrite nth_mid. cbn [obind fst snd].
  pose proof OA as OA'. rewrite ok_app in OA'. destruct OA' as (OA0 & OJ & CJ).
  apply ok_cons in OJ. cbn [fst snd] in OJ. destruct OJ as (Hj & _ & _).
  assert (Hjf : jf < first) by (apply Forall_app in FA; destruct FA as [_ FA]; inversion FA; assumption).
  assert (FA0 : Forall (fun e : entry => fst (snd e) < jf) A0).
  { apply Forall_forall. intros a Ha. specialize (CJ a _ Ha (or_introl eq_refl)). exact CJ. }
  destruct (Z.leb_spec first jl) as [Hjl|Hjl].
  - assert (FBl : Forall (fun e : entry => jl < fst e) B).
    { apply Forall_forall. intros b Hb. apply (C (jf, (jl, v)) b); [|assumption]. apply in_or_app. right. now left. }
    replace (A0 ++ (jf, (jl, v)) :: B) with ((A0 ++ [(jf, (jl, v))]) ++ B) by now rewrite <- app_assoc.
    rewrite map_insert_split; [|assumption|eapply Forall_impl; [|exact FBl]; cbn; intros; lia].
    rewrite to_key_ok by lia. cbn [obind]. rewrite shift_pos_gt by (rewrite app_length; cbn; lia).
    rewrite <- app_assoc. cbn [app]. rewrite set_last_mid. cbn [obind].
    destruct (FIN (A0 ++ [(jf, (first - 1, v))]) ((first, (jl, v)) :: B)) as (m' & E & O' & U).
    + apply (ok_join _ _ jf); auto.
      * apply ok_cons. cbn [fst snd]. split; [lia|]. split; [apply ok_nil|constructor].
      * constructor; [cbn; lia|constructor].
    + apply ok_cons. cbn [fst snd]. split; [lia|]. auto.
    + apply Forall_app. split; [eapply Forall_lt_mono; [|exact FA0]; lia|constructor; [cbn; lia|constructor]].
    + constructor; [cbn; lia|]. eapply Forall_impl; [|exact FBl]. cbn; intros; lia.
    + rewrite <- !app_assoc in E. cbn [app] in E.
      replace (length (A0 ++ [(jf, (first - 1, v))])) with (length (A0 ++ [(jf, (jl, v))])) in E
        by (rewrite !app_length; reflexivity).
      exists m'. split; [exact E|]. split; [exact O'|].
      intros k. rewrite (U k). rewrite <- !app_assoc. rewrite !get_app. cbn [app rm_get].
      destruct (rm_get A0 k); [reflexivity|].
      destruct (Z.leb_spec jf k), (Z.leb_spec k jl), (Z.leb_spec k (first - 1)), (Z.leb_spec first k), (Z.leb_spec k last);
        cbn [andb oval]; try lia; try reflexivity.
  - cbn [obind]. destruct (FIN (A0 ++ [(jf, (jl, v))]) B) as (m' & E & O' & U); auto.
    + apply Forall_app. split; [eapply Forall_lt_mono; [|exact FA0]; lia|constructor; [cbn; lia|constructor]].
    + rewrite <- !app_assoc in *. cbn [app] in *.
      replace (length (A0 ++ [(jf, (jl, v))])) with (S (length A0)) in E by (rewrite app_length; cbn; lia).
      exists m'. auto.
Qed.

(* defrag *)
Lemma defrag_loop_spec equal fuel : forall A a B,
  (forall x, equal x x = true) -> (forall x y z, equal x y = true -> equal y z = true -> equal x z = true) -> ok (A ++ a :: B) ->
  rm_defragmented equal (A ++ [a]) -> (length B < fuel)%nat ->
  exists m', defrag_loop kmin kmax fuel equal (A ++ a :: B) (length A) (S (length A)) = Some m' /\ ok m' /\
    rm_defragmented equal m' /\
    forall k, match rm_get (A ++ a :: B) k, rm_get m' k with
              | None, None => True | Some u, Some v => equal v u = true | _, _ => False end.
Proof.
  induction fuel as [|fuel IH]; intros A a B Hrefl Htrans Hok Hd Hf; [lia|]. cbn [defrag_loop].
  replace (nth_error (A ++ a :: B) (S (length A))) with (nth_error B 0).
  2:{ rewrite nth_error_app2 by lia. replace (S (length A) - length A)%nat with 1%nat by lia. reflexivity. }
  destruct B as [|b B]; cbn [nth_error].
  { exists (A ++ [a]). split; [reflexivity|]. split; [assumption|]. split; [assumption|].
    intros k. destruct (rm_get (A ++ [a]) k); auto. }
  rewrite nth_mid. cbn [obind]. destruct a as [af [al av]], b as [bf [bl bv]]. cbn [fst snd].
  pose proof Hok as Hok'. rewrite ok_app, !ok_cons in Hok'. cbn [fst snd] in Hok'.
  destruct Hok' as (OA & (Ha & (Hb & OB & FB) & Fa) & C).
  assert (Hab : al < bf) by (inversion Fa; assumption).
  rewrite to_key_ok by lia. cbn [obind].
  destruct ((bf =? al + 1) && equal av bv) eqn:M; cbn [negb].
  - rewrite set_last_mid. cbn [obind].
    replace (firstn (S (length A)) (A ++ (af, (bl, av)) :: (bf, (bl, bv)) :: B) ++
             skipn (S (S (length A))) (A ++ (af, (bl, av)) :: (bf, (bl, bv)) :: B))
      with (A ++ (af, (bl, av)) :: B).
    2:{ rewrite firstn_app, skipn_app. rewrite firstn_all2, skipn_all2 by lia.
        replace (S (length A) - length A)%nat with 1%nat by lia.
        replace (S (S (length A)) - length A)%nat with 2%nat by lia. cbn [firstn skipn app]. now rewrite <- app_assoc. }
    apply andb_true_iff in M. destruct M as [M1 M2]. apply Z.eqb_eq in M1. subst bf.
    destruct (IH A (af, (bl, av)) B Hrefl Htrans) as (m' & E & O' & D' & G).
    + rewrite ok_app, ok_cons. cbn [fst snd]. split; [assumption|]. split.
      * split; [lia|]. split; [assumption|assumption].
      * intros x y Hx [<-|Hy].
        -- apply (C x (af, (al, av)) Hx). now left.
        -- apply (C x y Hx). right. now right.
    + revert Hd. clear. induction A as [|x A IHA]; cbn [app rm_defragmented]; [auto|].
      intros [H1 H2]. split; [|now apply IHA]. destruct A as [|y A]; cbn [app fst snd] in *; [|assumption]. exact H1.
    + cbn in Hf. lia.
    + exists m'. split; [exact E|]. split; [assumption|]. split; [assumption|].
      intros k. specialize (G k). revert G. rewrite !get_app. cbn [rm_get].
      destruct (rm_get A k); [auto|].
      destruct (Z.leb_spec af k), (Z.leb_spec k al), (Z.leb_spec k bl), (Z.leb_spec (al + 1) k); cbn [andb]; try lia; auto.
      intros G. destruct (rm_get m' k) eqn:Gm; [|assumption].
      eapply Htrans; eassumption.
  - destruct (IH (A ++ [(af, (al, av))]) (bf, (bl, bv)) B Hrefl Htrans) as (m' & E & O' & D' & G).
    + rewrite <- app_assoc. assumption.
    + revert Hd. assert (Hn : ~ (bf = al + 1 /\ equal av bv = true)).
      { intros [-> Q]. rewrite Z.eqb_refl, Q in M. discriminate. }
      clear - Hn. rewrite <- app_assoc. cbn [app].
      induction A as [|x A IHA]; cbn [app rm_defragmented fst snd]; [auto|].
      intros [H1 H2]. split; [|now apply IHA]. destruct A as [|y A]; cbn [app fst snd] in *; assumption.
    + cbn in Hf. lia.
    + rewrite <- app_assoc in *. cbn [app] in *. rewrite app_length in E. cbn [length] in E.
      rewrite Nat.add_1_r in E. exists m'. auto.
Qed.

Lemma rm_defrag_spec equal m : (forall x, equal x x = true) ->
  (forall x y z, equal x y = true -> equal y z = true -> equal x z = true) -> ok m ->
  exists m', rm_defrag kmin kmax equal m = Some m' /\ ok m' /\ rm_defragmented equal m' /\
    forall k, match rm_get m k, rm_get m' k with
              | None, None => True | Some u, Some v => equal v u = true | _, _ => False end.
Proof.
  intros Hr Ht Hok. destruct m as [|a m].
  - exists []. repeat split; auto; constructor.
  - unfold rm_defrag. cbn [length].
    apply (defrag_loop_spec equal (S (length m)) [] a m); auto. cbn. auto.
Qed.
End P.
