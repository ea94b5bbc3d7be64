(* Proofs about the model of enumerations with named values *)
From Coq Require Import ZArith Lia Bool List Sorting.Sorted.
From Verif Require Import ArrLib EnumModel EnumSpec.
Import ListNotations.
Open Scope Z_scope.

(* ---- maps ---- *)
Section Map.
Context {K V J : Type} (less : K -> K -> bool) (key : K -> J) (lt : J -> J -> bool).
Context (Hless : forall a b, less a b = lt (key a) (key b)).
Context (Hirr : forall a, lt a a = false).
Context (Htrans : forall a b c, lt a b = true -> lt b c = true -> lt a c = true).
Context (Htotal : forall a b, lt a b = false -> lt b a = false -> a = b).

Definition ordered : list (K * V) -> Prop :=
  StronglySorted (fun p q => lt (key (fst p)) (key (fst q)) = true).

Definition has_key (m : list (K * V)) (k : K) : Prop :=
  exists k' v, In (k', v) m /\ key k' = key k.

Lemma lt_neq : forall a b, lt a b = true -> a <> b.
Proof. intros a b H E. subst. rewrite Hirr in H. discriminate. Qed.

Lemma find_key_some : forall m k v, ordered m ->
  (find_key less m k = Some v <-> exists k', In (k', v) m /\ key k' = key k).
Proof.
  induction m as [|[k' v'] m IH]; intros k v Ho; cbn [find_key].
  - split; [discriminate | intros (k' & [] & _)].
  - inversion Ho as [|? ? Ho' Hall]; subst. rewrite !Hless.
    destruct (lt (key k') (key k)) eqn:E1.
    + rewrite (IH k v Ho'). split.
      * intros (q & Hq & Eq). exists q. split; [right|]; assumption.
      * intros (q & [Hq | Hq] & Eq).
        -- inversion Hq; subst. exfalso. apply (lt_neq _ _ E1). assumption.
        -- exists q. split; assumption.
    + destruct (lt (key k) (key k')) eqn:E2.
      * split; [discriminate |]. intros (q & [Hq | Hq] & Eq).
        -- inversion Hq; subst. exfalso. apply (lt_neq _ _ E2). symmetry. assumption.
        -- rewrite Forall_forall in Hall. specialize (Hall _ Hq). cbn in Hall.
           exfalso. apply (lt_neq _ _ (Htrans _ _ _ E2 Hall)). symmetry. assumption.
      * pose proof (Htotal _ _ E1 E2) as E. split.
        -- intro H. injection H as <-. exists k'. split; [left; reflexivity | assumption].
        -- intros (q & [Hq | Hq] & Eq).
           ++ inversion Hq; subst. reflexivity.
           ++ rewrite Forall_forall in Hall. specialize (Hall _ Hq). cbn in Hall.
              exfalso. apply (lt_neq _ _ Hall). congruence.
Qed.

Lemma find_key_none : forall m k, ordered m -> (find_key less m k = None <-> ~ has_key m k).
Proof.
  intros m k Ho. split.
  - intros H (k' & v & Hin & E).
    assert (find_key less m k = Some v) by (apply find_key_some; [assumption | exists k'; split; assumption]).
    congruence.
  - intro H. destruct (find_key less m k) as [v|] eqn:E; [|reflexivity].
    apply find_key_some in E; [|assumption]. destruct E as (k' & Hin & E).
    exfalso. apply H. exists k', v. split; assumption.
Qed.

Lemma emplace_some : forall m k v m', ordered m -> emplace less m k v = Some m' ->
  ordered m' /\ ~ has_key m k /\ forall p, In p m' <-> p = (k, v) \/ In p m.
Proof.
  induction m as [|[k' v'] m IH]; intros k v m' Ho H; cbn [emplace] in H.
  - injection H as <-. split; [|split].
    + constructor; constructor.
    + intros (? & ? & [] & _).
    + intro p. cbn. split; [intros [H | []]; left; congruence | intros [H | []]; left; congruence].
  - inversion Ho as [|? ? Ho' Hall]; subst. rewrite !Hless in H. rewrite Forall_forall in Hall.
    destruct (lt (key k') (key k)) eqn:E1.
    + unfold obind in H. destruct (emplace less m k v) as [r|] eqn:E; [|discriminate].
      injection H as <-. destruct (IH _ _ _ Ho' E) as (A & B & D). split; [|split].
      * constructor; [assumption|]. rewrite Forall_forall. intros p Hp.
        apply D in Hp. destruct Hp as [-> | Hp]; [assumption | apply Hall; assumption].
      * intros (q & w & [Hq | Hq] & Eq).
        -- inversion Hq; subst. exact (lt_neq _ _ E1 Eq).
        -- apply B. exists q, w. split; assumption.
      * intro p. cbn [In]. rewrite D. tauto.
    + destruct (lt (key k) (key k')) eqn:E2; [|discriminate].
      injection H as <-. split; [|split].
      * constructor; [assumption|]. rewrite Forall_forall. intros p [<- | Hp]; [assumption|].
        apply (Htrans _ _ _ E2). apply Hall. assumption.
      * intros (q & w & [Hq | Hq] & Eq).
        -- inversion Hq; subst. apply (lt_neq _ _ E2). symmetry. assumption.
        -- specialize (Hall _ Hq). cbn in Hall. apply (lt_neq _ _ (Htrans _ _ _ E2 Hall)). symmetry. assumption.
      * intro p. cbn [In]. split; intros [H | H]; auto.
Qed.

Lemma emplace_none : forall m k v, ordered m -> emplace less m k v = None -> has_key m k.
Proof.
  induction m as [|[k' v'] m IH]; intros k v Ho H; cbn [emplace] in H; [discriminate|].
  inversion Ho as [|? ? Ho' Hall]; subst. rewrite !Hless in H.
  destruct (lt (key k') (key k)) eqn:E1.
  - unfold obind in H. destruct (emplace less m k v) as [r|] eqn:E; [discriminate|].
    destruct (IH _ _ Ho' E) as (q & w & Hq & Eq). exists q, w. split; [right|]; assumption.
  - destruct (lt (key k) (key k')) eqn:E2; [discriminate|].
    exists k', v'. split; [left; reflexivity | apply Htotal; assumption].
Qed.
End Map.

(* ---- order of names ---- *)

Lemma lex_irr : forall a, lex_less Z.ltb a a = false.
Proof. induction a as [|x a IH]; cbn; [reflexivity|]. rewrite Z.ltb_irrefl. exact IH. Qed.

Lemma lex_trans : forall a b c, lex_less Z.ltb a b = true -> lex_less Z.ltb b c = true -> lex_less Z.ltb a c = true.
Proof.
  induction a as [|x a IH]; intros [|y b] [|z c] H1 H2; cbn in *; try discriminate; try reflexivity.
  destruct (Z.ltb_spec x y), (Z.ltb_spec y x), (Z.ltb_spec y z), (Z.ltb_spec z y), (Z.ltb_spec x z), (Z.ltb_spec z x);
    try discriminate; try reflexivity; try lia.
  eapply IH; eassumption.
Qed.

Lemma lex_total : forall a b, lex_less Z.ltb a b = false -> lex_less Z.ltb b a = false -> a = b.
Proof.
  induction a as [|x a IH]; intros [|y b] H1 H2; cbn in *; try discriminate; [reflexivity|].
  destruct (Z.ltb_spec x y), (Z.ltb_spec y x); try discriminate; try lia.
  f_equal; [lia | apply IH; assumption].
Qed.

Definition name_key (ignore_case : bool) (a : list Z) : list Z :=
  if ignore_case then map toupper a else a.

Lemma name_less_key : forall ic a b, name_less ic a b = lex_less Z.ltb (name_key ic a) (name_key ic b).
Proof.
  intros [|] a b; unfold name_less, name_key; [|reflexivity].
  revert b. induction a as [|x a IH]; intros [|y b]; cbn; try reflexivity. rewrite IH. reflexivity.
Qed.

Lemma toupper_same : forall a b, toupper a = toupper b <-> same_letter a b.
Proof.
  intros a b. unfold toupper, same_letter.
  destruct (Z.leb_spec 97 a), (Z.leb_spec a 122), (Z.leb_spec 97 b), (Z.leb_spec b 122); cbn; lia.
Qed.

Lemma name_key_same : forall ic a b, name_key ic a = name_key ic b <-> same_name ic a b.
Proof.
  intros [|] a b; unfold name_key, same_name; [|tauto].
  revert b. induction a as [|x a IH]; intros [|y b]; cbn; split; intro H;
    try discriminate; try (inversion H; fail); try constructor; try reflexivity.
  - injection H as E1 E2. apply toupper_same. assumption.
  - injection H as E1 E2. apply IH. assumption.
  - inversion H; subst. f_equal; [apply toupper_same | apply IH]; assumption.
Qed.

(* ---- the mapper ---- *)

Definition value_ordered := @ordered Z (list Z) Z (fun v => v) Z.ltb.
Definition name_ordered (ic : bool) := @ordered (list Z) Z (list Z) (name_key ic) (lex_less Z.ltb).

(* the mapper has the entries *)
Definition mapper_for (ic : bool) (m : mapper) (entries : list (Z * list Z)) : Prop :=
  value_ordered (value_to_name m) /\ name_ordered ic (name_to_value m) /\
  (forall v n, In (v, n) (value_to_name m) <-> In (v, n) entries) /\
  (forall v n, In (n, v) (name_to_value m) <-> In (v, n) entries).

Lemma z_irr : forall a, (a <? a) = false. Proof. intros; apply Z.ltb_irrefl. Qed.
Lemma z_trans : forall a b c, (a <? b) = true -> (b <? c) = true -> (a <? c) = true.
Proof. intros a b c. rewrite !Z.ltb_lt. lia. Qed.
Lemma z_total : forall a b, (a <? b) = false -> (b <? a) = false -> a = b.
Proof. intros a b. rewrite !Z.ltb_ge. lia. Qed.

Lemma value_emplace_some : forall m k v m', value_ordered m -> emplace Z.ltb m k v = Some m' ->
  value_ordered m' /\ ~ has_key (fun v => v) m k /\ forall p, In p m' <-> p = (k, v) \/ In p m.
Proof.
  intros. eapply (emplace_some Z.ltb (fun v => v) Z.ltb);
    eauto using z_irr, z_trans.
Qed.

Lemma value_emplace_none : forall m k v, value_ordered m -> emplace Z.ltb m k v = None -> has_key (fun v => v) m k.
Proof.
  intros. eapply (emplace_none Z.ltb (fun v => v) Z.ltb); eauto using z_total.
Qed.

Lemma name_emplace_some : forall ic m k v m', name_ordered ic m -> emplace (name_less ic) m k v = Some m' ->
  name_ordered ic m' /\ ~ has_key (name_key ic) m k /\ forall p, In p m' <-> p = (k, v) \/ In p m.
Proof.
  intros. eapply (emplace_some (name_less ic) (name_key ic) (lex_less Z.ltb));
    eauto using name_less_key, lex_irr, lex_trans.
Qed.

Lemma name_emplace_none : forall ic m k v, name_ordered ic m -> emplace (name_less ic) m k v = None ->
  has_key (name_key ic) m k.
Proof.
  intros. eapply (emplace_none (name_less ic) (name_key ic) (lex_less Z.ltb));
    eauto using name_less_key, lex_total.
Qed.

Lemma has_value : forall ic m entries v, mapper_for ic m entries ->
  (has_key (fun v => v) (value_to_name m) v <-> value_clash entries v).
Proof.
  intros ic m entries v (_ & _ & H & _). unfold has_key, value_clash. split.
  - intros (k & n & Hin & <-). exists n. apply H. assumption.
  - intros (n & Hin). exists v, n. split; [apply H; assumption | reflexivity].
Qed.

Lemma has_name : forall ic m entries n, mapper_for ic m entries ->
  (has_key (name_key ic) (name_to_value m) n <-> name_clash ic entries n).
Proof.
  intros ic m entries n (_ & _ & _ & H). unfold has_key, name_clash. split.
  - intros (k & v & Hin & E). exists v, k. split; [apply H; assumption | apply name_key_same; assumption].
  - intros (v & k & Hin & E). exists k, v. split; [apply H; assumption | apply name_key_same; assumption].
Qed.

Lemma add_entry_right : forall ic m entries v n, mapper_for ic m entries ->
  match add_entry ic m (v, n) with
  | inr m' => mapper_for ic m' (entries ++ [(v, n)]) /\ ~ value_clash entries v /\ ~ name_clash ic entries n
  | inl DuplicateValue => value_clash entries v
  | inl DuplicateName => ~ value_clash entries v /\ name_clash ic entries n
  end.
Proof.
  intros ic m entries v n H. pose proof (has_value ic m entries v H) as Hv.
  pose proof (has_name ic m entries n H) as Hn.
  destruct H as (O1 & O2 & I1 & I2). unfold add_entry.
  destruct (emplace Z.ltb (value_to_name m) v n) as [m1|] eqn:E1.
  - destruct (value_emplace_some _ _ _ _ O1 E1) as (A1 & B1 & D1).
    destruct (emplace (name_less ic) (name_to_value m) n v) as [m2|] eqn:E2.
    + destruct (name_emplace_some _ _ _ _ _ O2 E2) as (A2 & B2 & D2).
      split; [|split; [rewrite <- Hv; exact B1 | rewrite <- Hn; exact B2]].
      split; [exact A1 | split; [exact A2 | split]]; cbn [value_to_name name_to_value]; intros v' n';
        [rewrite D1, I1 | rewrite D2, I2]; rewrite in_app_iff; cbn [In]; split.
      * intros [E | E]; [right; left; congruence | left; assumption].
      * intros [E | [E | []]]; [right; assumption | left; congruence].
      * intros [E | E]; [right; left; congruence | left; assumption].
      * intros [E | [E | []]]; [right; assumption | left; congruence].
    + split; [rewrite <- Hv; exact B1 | rewrite <- Hn; eapply name_emplace_none; eassumption].
  - apply Hv. eapply value_emplace_none; eassumption.
Qed.

Lemma add_entries_right : forall ic map m entries, mapper_for ic m entries ->
  match add_entries ic m map with
  | inr m' => mapper_for ic m' (entries ++ map) /\
      forall a v n b, map = a ++ (v, n) :: b -> ~ value_clash (entries ++ a) v /\ ~ name_clash ic (entries ++ a) n
  | inl e => exists a v n b, map = a ++ (v, n) :: b /\
      (forall a1 v1 n1 b1, a = a1 ++ (v1, n1) :: b1 ->
        ~ value_clash (entries ++ a1) v1 /\ ~ name_clash ic (entries ++ a1) n1) /\
      match e with
      | DuplicateValue => value_clash (entries ++ a) v
      | DuplicateName => ~ value_clash (entries ++ a) v /\ name_clash ic (entries ++ a) n
      end
  end.
Proof.
  induction map as [|[v n] map IH]; intros m entries H; cbn [add_entries].
  - rewrite app_nil_r. split; [assumption|]. intros a v n b E. destruct a; discriminate.
  - pose proof (add_entry_right ic m entries v n H) as R.
    destruct (add_entry ic m (v, n)) as [e | m'].
    + exists [], v, n, map. split; [reflexivity | split].
      * intros a1 v1 n1 b1 E. destruct a1; discriminate.
      * rewrite app_nil_r. destruct e; exact R.
    + destruct R as (R1 & R2 & R3). specialize (IH m' (entries ++ [(v, n)]) R1).
      destruct (add_entries ic m' map) as [e | m''].
      * destruct IH as (a & v1 & n1 & b & E & Hb & He).
        exists ((v, n) :: a), v1, n1, b. split; [cbn; congruence | split].
        -- intros a1 v2 n2 b1 Ea. destruct a1 as [|p a1]; cbn in Ea.
           ++ injection Ea as <- <- <-. rewrite app_nil_r. split; assumption.
           ++ injection Ea as <- ->. specialize (Hb a1 v2 n2 b1 eq_refl). rewrite <- app_assoc in Hb. exact Hb.
        -- rewrite <- app_assoc in He. exact He.
      * rewrite <- app_assoc in IH. destruct IH as (M & Hb). split; [exact M|].
        intros a v1 n1 b E. destruct a as [|p a]; cbn in E.
        -- injection E as <- <- <-. rewrite app_nil_r. split; assumption.
        -- injection E as <- E. specialize (Hb a v1 n1 b E). rewrite <- app_assoc in Hb. exact Hb.
Qed.

Lemma empty_mapper : forall ic, mapper_for ic (Mapper [] []) [].
Proof. intro ic. split; [constructor | split; [constructor | split; intros; cbn; tauto]]. Qed.

Lemma make_mapper_some : forall ic entries m, make_mapper ic entries = inr m ->
  mapper_for ic m entries /\ clash_free ic entries.
Proof.
  intros ic entries m H. unfold make_mapper in H.
  pose proof (add_entries_right ic entries _ _ (empty_mapper ic)) as R. rewrite H in R. exact R.
Qed.

Lemma make_mapper_error : forall ic entries e, make_mapper ic entries = inl e ->
  exists earlier v n later, entries = earlier ++ (v, n) :: later /\ clash_free ic earlier /\
    match e with
    | DuplicateValue => value_clash earlier v
    | DuplicateName => ~ value_clash earlier v /\ name_clash ic earlier n
    end.
Proof.
  intros ic entries e H. unfold make_mapper in H.
  pose proof (add_entries_right ic entries _ _ (empty_mapper ic)) as R. rewrite H in R. exact R.
Qed.

Lemma make_mapper_ok : forall ic entries, clash_free ic entries -> exists m, make_mapper ic entries = inr m.
Proof.
  intros ic entries H. destruct (make_mapper ic entries) as [e | m] eqn:E; [|exists m; reflexivity].
  destruct (make_mapper_error _ _ _ E) as (a & v & n & b & Ee & _ & Hc).
  destruct (H a v n b Ee) as (N1 & N2). destruct e; tauto.
Qed.

Lemma mapper_name_right : forall ic m entries v n, mapper_for ic m entries ->
  (mapper_name m v = Some n <-> In (v, n) entries).
Proof.
  intros ic m entries v n (O1 & _ & I1 & _). unfold mapper_name.
  rewrite (find_key_some Z.ltb (fun v => v) Z.ltb) by (auto using z_irr, z_total; exact z_trans).
  split.
  - intros (k & Hin & <-). apply I1. assumption.
  - intro Hin. exists v. split; [apply I1; assumption | reflexivity].
Qed.

Lemma mapper_parse_right : forall ic m entries s v, mapper_for ic m entries ->
  (mapper_parse ic m s = Some v <-> exists n, In (v, n) entries /\ same_name ic n s).
Proof.
  intros ic m entries s v (_ & O2 & _ & I2). unfold mapper_parse.
  rewrite (find_key_some (name_less ic) (name_key ic) (lex_less Z.ltb))
    by (auto using name_less_key, lex_irr, lex_total; exact lex_trans).
  split; intros (n & Hin & E); exists n; (split; [apply I2; assumption | apply name_key_same; assumption]).
Qed.
