(* The positions automaton of a pattern *)
From Coq Require Import ZArith Bool List Arith Lia Sorted.
From Verif Require Import ArrLib StringMatcherModel StringMatcherProofs WordWrapProofs2.
Import ListNotations.
Open Scope nat_scope.

Section P.
Variable star : Z.

Definition st (l : list Z) (i : nat) : Prop := nth_error l i = Some star.
Definition allst (l : list Z) (i j : nat) : Prop := forall k, i <= k < j -> st l k.
Definition sym (c : Z) : symbol := if Z.eqb c star then SWildcard else SCharacter c.
(* j can follow i, where j = length l is the end *)
Definition link (l : list Z) (i j : nat) : Prop :=
  i < length l /\ j <= length l /\ ((i = j /\ st l i) \/ (i < j /\ allst l (S i) j)).

Lemma st_app l1 l2 k : st (l1 ++ l2) k <-> (k < length l1 /\ st l1 k) \/ (length l1 <= k /\ st l2 (k - length l1)).
Proof.
  unfold st. destruct (Nat.lt_ge_cases k (length l1)).
  - rewrite nth_error_app1 by lia. split; [auto|]. intros [[? ?]|[? ?]]; [assumption|lia].
  - rewrite nth_error_app2 by lia. split; [auto|]. intros [[? ?]|[? ?]]; [lia|assumption].
Qed.
Lemma st_lt l k : st l k -> k < length l.
Proof. apply nth_lt. Qed.

(* n1 is n0 with positions for l added, of pattern k *)
Definition added (k : nat) (n0 n1 : nfa) (l : list Z) (r : result) : Prop :=
  let b := length (fst n0) in
  wf n1 /\ info n1 = info n0 ++ map (fun c => (k, sym c)) l /\
  (forall x y, follow n1 x y <-> follow n0 x y \/ exists i j, x = b + i /\ y = b + j /\ j < length l /\ link l i j) /\
  (r_nullable r = true <-> allst l 0 (length l)) /\
  sorted (r_firstpos r) /\ sorted (r_lastpos r) /\
  (forall x, In x (r_firstpos r) <-> exists j, x = b + j /\ j < length l /\ allst l 0 j) /\
  (forall x, In x (r_lastpos r) <-> exists j, x = b + j /\ j < length l /\ allst l (S j) (length l)).

Lemma added_length k n0 n1 l r : added k n0 n1 l r -> length (fst n1) = length (fst n0) + length l.
Proof. intros (_ & H & _). rewrite <- !info_length, H, app_length, map_length. reflexivity. Qed.

Lemma allst_app l1 l2 i j : allst (l1 ++ l2) i j <->
  allst l1 i (Nat.min j (length l1)) /\ allst l2 (i - length l1) (j - length l1).
Proof.
  unfold allst. split.
  - intros H. split; intros k Hk.
    + specialize (H k ltac:(lia)). apply st_app in H. destruct H as [[? ?]|[? ?]]; [assumption|lia].
    + specialize (H (k + length l1) ltac:(lia)). apply st_app in H. destruct H as [[? ?]|[? ?]]; [lia|].
      replace (k + length l1 - length l1) with k in * by lia. assumption.
  - intros [H1 H2] k Hk. apply st_app. destruct (Nat.lt_ge_cases k (length l1)).
    + left. split; [assumption|]. apply H1. lia.
    + right. split; [assumption|]. apply H2. lia.
Qed.

Lemma allst_nil l i j : j <= i -> allst l i j.
Proof. intros H k Hk. lia. Qed.

Lemma link_app l1 l2 i j : j < length (l1 ++ l2) ->
  (link (l1 ++ l2) i j <->
   (j < length l1 /\ link l1 i j) \/ (length l1 <= i /\ length l1 <= j /\ link l2 (i - length l1) (j - length l1)) \/
   (i < length l1 /\ length l1 <= j /\ allst l1 (S i) (length l1) /\ allst l2 0 (j - length l1))).
Proof.
  rewrite app_length. intros Hj. unfold link. rewrite app_length, st_app, allst_app. split.
  - intros (H1 & H2 & H).
    destruct (Nat.lt_ge_cases i (length l1)) as [Hi|Hi].
    + destruct (Nat.lt_ge_cases j (length l1)) as [Hj1|Hj1].
      * left. split; [assumption|]. split; [assumption|]. split; [lia|]. destruct H as [[-> [[? ?]|[? ?]]]|[? [? ?]]]; [auto|lia|].
        right. split; [assumption|]. rewrite Nat.min_l in * by lia. assumption.
      * right; right. split; [assumption|]. split; [assumption|]. destruct H as [[-> _]|[? [Ha Hb]]]; [lia|].
        rewrite Nat.min_r in Ha by lia. split; [assumption|]. intros k Hk. apply Hb. lia.
    + right; left. split; [assumption|]. split; [destruct H as [[-> _]|[? _]]; lia|].
      split; [lia|]. split; [lia|]. destruct H as [[-> [[? ?]|[? ?]]]|[? [Ha Hb]]]; [lia|auto|].
      right. split; [lia|]. replace (S (i - length l1)) with (S i - length l1) by lia. assumption.
  - intros [(H & H1 & H2 & H3)|[(Hi & Hj1 & H1 & H2 & H3)|(Hi & Hj1 & H1 & H2)]].
    + split; [lia|]. split; [lia|]. destruct H3 as [[-> ?]|[? ?]]; [left; auto|]. right. split; [lia|].
      rewrite Nat.min_l by lia. split; [assumption|]. apply allst_nil. lia.
    + split; [lia|]. split; [lia|]. destruct H3 as [[? ?]|[? ?]].
      * left. split; [lia|]. auto.
      * right. split; [lia|]. split; [apply allst_nil; lia|]. replace (S i - length l1) with (S (i - length l1)) by lia. assumption.
    + split; [lia|]. split; [lia|]. right. split; [lia|]. rewrite Nat.min_r by lia. split; [assumption|].
      replace (S i - length l1) with 0 by lia. assumption.
Qed.

Lemma added_concat k n0 n1 n2 l1 l2 r1 r2 : l1 <> [] -> l2 <> [] ->
  added k n0 n1 l1 r1 -> added k n1 n2 l2 r2 ->
  exists n3 r,
    (let? n := register_followpos_2 n2 (r_lastpos r1) (r_firstpos r2) in
     let? firstpos :=
       (if negb (r_nullable r1) then Some (r_firstpos r1) else unite (r_firstpos r1) (r_firstpos r2)) in
     let? lastpos :=
       (if negb (r_nullable r2) then Some (r_lastpos r2) else unite (r_lastpos r1) (r_lastpos r2)) in
     Some (Result (r_nullable r1 && r_nullable r2) firstpos lastpos, n)) = Some (r, n3) /\
    added k n0 n3 (l1 ++ l2) r.
Proof.
  intros N1 N2 A1 A2. pose proof (added_length _ _ _ _ _ A1) as L1. pose proof (added_length _ _ _ _ _ A2) as L2.
  assert (P1 : 0 < length l1) by (destruct l1; [congruence|cbn; lia]).
  assert (P2 : 0 < length l2) by (destruct l2; [congruence|cbn; lia]).
  destruct A1 as (W1 & I1 & F1 & U1 & SF1 & SL1 & FP1 & LP1).
  destruct A2 as (W2 & I2 & F2 & U2 & SF2 & SL2 & FP2 & LP2).
  destruct (register_followpos_2_spec (r_lastpos r1) (r_firstpos r2) n2 W2) as (n3 & -> & W3 & I3 & F3).
  { intros p Hp. apply LP1 in Hp. destruct Hp as (j & -> & Hj & _). lia. }
  cbn [obind].
  assert (EF : exists fp, (if negb (r_nullable r1) then Some (r_firstpos r1) else unite (r_firstpos r1) (r_firstpos r2)) = Some fp /\
    sorted fp /\ forall x, In x fp <-> exists j, x = length (fst n0) + j /\ j < length (l1 ++ l2) /\ allst (l1 ++ l2) 0 j).
  { destruct (r_nullable r1) eqn:E1; cbn [negb].
    - exists (union (r_firstpos r1) (r_firstpos r2)). split; [|split].
      + apply unite_some; auto. exists (length (fst n0) + 0). split.
        * apply FP1. exists 0. split; [reflexivity|]. split; [assumption|]. apply allst_nil. lia.
        * intros C. apply FP2 in C. destruct C as (j & ? & _). lia.
      + auto with sm.
      + intros x. rewrite union_in, FP1, FP2, app_length. split.
        * intros [(j & -> & Hj & Ha)|(j & -> & Hj & Ha)].
          -- exists j. split; [reflexivity|]. split; [lia|]. apply allst_app. split; [now rewrite Nat.min_l by lia|apply allst_nil; lia].
          -- exists (length l1 + j). split; [lia|]. split; [lia|]. apply allst_app. rewrite Nat.min_r by lia. split; [now apply U1|].
             replace (length l1 + j - length l1) with j by lia. assumption.
        * intros (j & -> & Hj & Ha). apply allst_app in Ha. destruct Ha as [Ha Hb]. destruct (Nat.lt_ge_cases j (length l1)).
          -- left. exists j. rewrite Nat.min_l in Ha by lia. auto.
          -- right. exists (j - length l1). split; [lia|]. split; [lia|]. assumption.
    - exists (r_firstpos r1). split; [reflexivity|]. split; [assumption|].
      intros x. rewrite FP1, app_length. split.
      + intros (j & -> & Hj & Ha). exists j. split; [reflexivity|]. split; [lia|]. apply allst_app. split; [now rewrite Nat.min_l by lia|apply allst_nil; lia].
      + intros (j & -> & Hj & Ha). apply allst_app in Ha. destruct Ha as [Ha Hb]. destruct (Nat.lt_ge_cases j (length l1)).
        * exists j. rewrite Nat.min_l in Ha by lia. auto.
        * rewrite Nat.min_r in Ha by lia. apply U1 in Ha. discriminate. }
  destruct EF as (fp & -> & Sf & Hf). cbn [obind].
  assert (EL : exists lp, (if negb (r_nullable r2) then Some (r_lastpos r2) else unite (r_lastpos r1) (r_lastpos r2)) = Some lp /\
    sorted lp /\ forall x, In x lp <-> exists j, x = length (fst n0) + j /\ j < length (l1 ++ l2) /\ allst (l1 ++ l2) (S j) (length (l1 ++ l2))).
  { assert (G2 : forall j, j < length l2 -> (allst l2 (S j) (length l2) <-> allst (l1 ++ l2) (S (length l1 + j)) (length l1 + length l2))).
    { intros j Hj. rewrite allst_app. replace (length l1 + length l2 - length l1) with (length l2) by lia.
      replace (S (length l1 + j) - length l1) with (S j) by lia. split; [intros; split; [apply allst_nil; lia|assumption]|intros [_ H]; exact H]. }
    destruct (r_nullable r2) eqn:E2; cbn [negb].
    - exists (union (r_lastpos r1) (r_lastpos r2)). split; [|split].
      + apply unite_some; auto. exists (length (fst n0) + (length l1 - 1)). split.
        * apply LP1. exists (length l1 - 1). split; [reflexivity|]. split; [lia|]. apply allst_nil. lia.
        * intros C. apply LP2 in C. destruct C as (j & ? & _). lia.
      + auto with sm.
      + intros x. rewrite union_in, LP1, LP2, app_length. split.
        * intros [(j & -> & Hj & Ha)|(j & -> & Hj & Ha)].
          -- exists j. split; [reflexivity|]. split; [lia|]. apply allst_app. rewrite Nat.min_r by lia. split; [assumption|].
             replace (S j - length l1) with 0 by lia. replace (length l1 + length l2 - length l1) with (length l2) by lia. now apply U2.
          -- exists (length l1 + j). split; [lia|]. split; [lia|]. now apply G2.
        * intros (j & -> & Hj & Ha). destruct (Nat.lt_ge_cases j (length l1)).
          -- left. exists j. apply allst_app in Ha. rewrite Nat.min_r in Ha by lia. destruct Ha. auto.
          -- right. exists (j - length l1). split; [lia|]. split; [lia|]. apply G2; [lia|].
             replace (length l1 + (j - length l1)) with j by lia. assumption.
    - exists (r_lastpos r2). split; [reflexivity|]. split; [assumption|].
      intros x. rewrite LP2, app_length. split.
      + intros (j & -> & Hj & Ha). exists (length l1 + j). split; [lia|]. split; [lia|]. now apply G2.
      + intros (j & -> & Hj & Ha). destruct (Nat.lt_ge_cases j (length l1)).
        * exfalso. apply allst_app in Ha. destruct Ha as [_ Ha]. replace (S j - length l1) with 0 in Ha by lia.
          replace (length l1 + length l2 - length l1) with (length l2) in Ha by lia. apply U2 in Ha. discriminate.
        * exists (j - length l1). split; [lia|]. split; [lia|]. apply G2; [lia|].
          replace (length l1 + (j - length l1)) with j by lia. assumption. }
  destruct EL as (lp & -> & Sl & Hl). cbn [obind].
  eexists _, _. split; [reflexivity|]. unfold added. cbn [r_nullable r_firstpos r_lastpos].
  split; [assumption|]. split; [rewrite I3, I2, I1, map_app, app_assoc; reflexivity|].
  split.
  { intros x y. rewrite F3, F2, F1, FP2, LP1. split.
    - intros [[[H|H]|H]|H].
      + left; assumption.
      + right. destruct H as (i & j & -> & -> & Hj & Hl1). exists i, j. split; [reflexivity|]. split; [reflexivity|].
        rewrite app_length. split; [lia|]. apply link_app; [rewrite app_length; lia|]. left; auto.
      + right. destruct H as (i & j & -> & -> & Hj & Hl1). exists (length l1 + i), (length l1 + j). split; [lia|]. split; [lia|].
        rewrite app_length. split; [lia|]. apply link_app; [rewrite app_length; lia|]. right; left. split; [lia|]. split; [lia|].
        replace (length l1 + i - length l1) with i by lia. replace (length l1 + j - length l1) with j by lia. assumption.
      + right. destruct H as ((i & -> & Hi & Ha) & (j & -> & Hj & Hb)). exists i, (length l1 + j). split; [lia|]. split; [lia|].
        rewrite app_length. split; [lia|]. apply link_app; [rewrite app_length; lia|]. right; right. split; [assumption|]. split; [lia|].
        split; [assumption|]. replace (length l1 + j - length l1) with j by lia. assumption.
    - intros [H|(i & j & -> & -> & Hj & H)]; [auto|]. apply link_app in H; [|assumption]. rewrite app_length in Hj.
      destruct H as [[H1 H2]|[(H1 & H2 & H3)|(H1 & H2 & H3 & H4)]].
      + left; left; right. exists i, j. auto.
      + left; right. exists (i - length l1), (j - length l1). split; [lia|]. split; [lia|]. split; [lia|]. assumption.
      + right. split; [exists i; auto|]. exists (j - length l1). split; [lia|]. split; [lia|]. assumption. }
  split.
  { rewrite andb_true_iff, U1, U2, allst_app, app_length, Nat.min_r by lia.
    replace (0 - length l1) with 0 by lia. replace (length l1 + length l2 - length l1) with (length l2) by lia. reflexivity. }
  split; [assumption|]. split; [assumption|]. split; assumption.
Qed.

Lemma allst_none l i j : Forall (fun c => c <> star) l -> i < length l -> ~ (i < j /\ allst l i j).
Proof.
  intros H Hi [Hj C]. specialize (C i ltac:(lia)). unfold st in C. rewrite Forall_forall in H. apply (H star); [|reflexivity].
  eapply nth_error_In; eauto.
Qed.

(* characters of a segment *)
Lemma add_characters_spec k chars : forall n0 n l last first, l <> [] ->
  Forall (fun c => c <> star) l -> Forall (fun c => c <> star) chars ->
  added k n0 n l (Result false [first] [last]) ->
  exists n' last', add_characters n k last chars = Some (n', last') /\
    added k n0 n' (l ++ chars) (Result false [first] [last']).
Proof.
  induction chars as [|ch chars IH]; intros n0 n l last first N Hl Hc A; cbn [add_characters].
  - exists n, last. rewrite app_nil_r. auto.
  - pose proof (added_length _ _ _ _ _ A) as L. inversion Hc as [|? ? Hch Hc']; subst.
    assert (P1 : 0 < length l) by (destruct l; [congruence|cbn; lia]).
    destruct A as (W1 & I1 & F1 & U1 & SF1 & SL1 & FP1 & LP1). cbn [r_nullable r_firstpos r_lastpos] in *.
    assert (EL : last = length (fst n0) + (length l - 1)).
    { assert (H : In (length (fst n0) + (length l - 1)) [last]).
      { apply LP1. exists (length l - 1). split; [reflexivity|]. split; [lia|]. apply allst_nil. lia. }
      destruct H as [->|[]]. reflexivity. }
    assert (EF : first = length (fst n0)).
    { assert (H : In (length (fst n0)) [first]).
      { apply FP1. exists 0. split; [lia|]. split; [lia|]. apply allst_nil. lia. }
      destruct H as [->|[]]. reflexivity. }
    destruct (register_position_spec n (SCharacter ch) k W1) as (n1 & -> & W2 & I2 & F2).
    destruct (register_followpos_spec n1 last (length (fst n)) W2) as (n2 & E & W3 & I3 & F3).
    { rewrite <- info_length, I2, app_length, info_length. lia. }
    rewrite E. cbn [obind].
    destruct (IH n0 n2 (l ++ [ch]) (length (fst n)) first) as (n' & last' & E' & A').
    + destruct l; discriminate.
    + apply Forall_app. auto.
    + assumption.
    + assert (Hall : Forall (fun c => c <> star) (l ++ [ch])) by (apply Forall_app; auto).
      unfold added. cbn [r_nullable r_firstpos r_lastpos]. split; [assumption|].
      split. { rewrite I3, I2, I1, map_app, app_assoc. cbn [map]. replace (sym ch) with (SCharacter ch); [reflexivity|]. unfold sym. destruct (Z.eqb_spec ch star); [contradiction|reflexivity]. }
      split.
      { intros x y. rewrite F3, F2, F1. split.
        - intros [[H|(i & j & -> & -> & Hj & H)]|[-> ->]].
          + auto.
          + right. exists i, j. split; [reflexivity|]. split; [reflexivity|]. rewrite app_length. split; [lia|].
            apply link_app; [rewrite app_length; lia|]. auto.
          + right. exists (length l - 1), (length l). split; [assumption|]. split; [lia|]. rewrite app_length. cbn [length]. split; [lia|].
            unfold link. rewrite app_length. cbn [length]. split; [lia|]. split; [lia|]. right. split; [lia|]. apply allst_nil. lia.
        - intros [H|(i & j & -> & -> & Hj & H1 & H2 & H)]; [auto|]. rewrite app_length in *. cbn [length] in *.
          destruct H as [[-> H]|[H H3]].
          + exfalso. apply (allst_none (l ++ [ch]) j (S j) Hall); [rewrite app_length; cbn [length]; lia|]. split; [lia|]. intros q Hq. replace q with j by lia. assumption.
          + assert (j = S i). { destruct (Nat.eq_dec j (S i)); [assumption|]. exfalso.
              apply (allst_none (l ++ [ch]) (S i) j Hall); [rewrite app_length; cbn [length]; lia|]. split; [lia|assumption]. }
            subst j. destruct (Nat.eq_dec (S i) (length l)) as [El|El].
            * right. split; [lia|]. lia.
            * left; right. exists i, (S i). split; [reflexivity|]. split; [reflexivity|]. split; [lia|]. unfold link. split; [lia|]. split; [lia|].
              right. split; [lia|]. apply allst_nil. lia. }
      split. { split; [discriminate|]. intros C. exfalso. apply (allst_none (l ++ [ch]) 0 (length (l ++ [ch])) Hall); rewrite app_length; cbn [length]; [lia|]. split; [lia|]. rewrite app_length in C. exact C. }
      split; [apply sorted_1|]. split; [apply sorted_1|]. split.
      { intros x. cbn [In]. split.
        - intros [<-|[]]. exists 0. split; [lia|]. rewrite app_length. split; [lia|]. apply allst_nil. lia.
        - intros (j & -> & Hj & H). destruct j; [left; lia|]. exfalso. apply (allst_none (l ++ [ch]) 0 (S j) Hall); [rewrite app_length; lia|]. split; [lia|assumption]. }
      { intros x. cbn [In]. split.
        - intros [<-|[]]. exists (length l). split; [lia|]. rewrite app_length. cbn [length]. split; [lia|]. apply allst_nil. lia.
        - intros (j & -> & Hj & H). destruct (Nat.eq_dec j (length l)) as [->|Hne]; [left; lia|]. exfalso. rewrite app_length in *. cbn [length] in *.
          apply (allst_none (l ++ [ch]) (S j) (length l + 1) Hall); [rewrite app_length; cbn [length]; lia|]. split; [lia|assumption]. }
    + exists n', last'. rewrite <- app_assoc in A'. cbn in A'. auto.
Qed.

(* one position *)
Lemma added_char k n ch : wf n -> ch <> star ->
  exists n', register_position n (SCharacter ch) k = (length (fst n), n') /\
    added k n n' [ch] (Result false [length (fst n)] [length (fst n)]).
Proof.
  intros W Hch. destruct (register_position_spec n (SCharacter ch) k W) as (n1 & E & W2 & I2 & F2).
  exists n1. split; [exact E|]. unfold added. cbn [r_nullable r_firstpos r_lastpos length].
  assert (Hs : forall k, ~ st [ch] k). { intros [|[|q]]; unfold st; cbn; congruence. }
  split; [assumption|]. split. { rewrite I2. cbn. unfold sym. destruct (Z.eqb_spec ch star); [contradiction|reflexivity]. }
  split. { intros x y. rewrite F2. split; [auto|]. intros [H|(i & j & -> & -> & Hj & H1 & H2 & H)]; [assumption|]. cbn [length] in *.
    destruct H as [[_ H]|[H _]]; [destruct (Hs _ H)|lia]. }
  split. { split; [discriminate|]. intros C. destruct (Hs 0). apply C. lia. }
  split; [apply sorted_1|]. split; [apply sorted_1|].
  split; intros x; cbn [In]; (split; [intros [<-|[]]; exists 0; split; [lia|]; split; [lia|]; apply allst_nil; lia|intros (j & -> & Hj & _); left; lia]).
Qed.

Lemma added_star k n : wf n ->
  exists n' n'', register_position n SWildcard k = (length (fst n), n') /\
    register_followpos n' (length (fst n)) (length (fst n)) = Some n'' /\
    added k n n'' [star] (Result true [length (fst n)] [length (fst n)]).
Proof.
  intros W. destruct (register_position_spec n SWildcard k W) as (n1 & E & W2 & I2 & F2).
  destruct (register_followpos_spec n1 (length (fst n)) (length (fst n)) W2) as (n2 & E' & W3 & I3 & F3).
  { rewrite <- (info_length n1), I2, app_length, info_length. cbn. lia. }
  exists n1, n2. split; [exact E|]. split; [exact E'|]. unfold added. cbn [r_nullable r_firstpos r_lastpos length].
  split; [assumption|]. split. { rewrite I3, I2. cbn. unfold sym. now rewrite Z.eqb_refl. }
  split. { intros x y. rewrite F3, F2. split.
    - intros [H|[-> ->]]; [auto|]. right. exists 0, 0. split; [lia|]. split; [lia|]. split; [lia|]. split; [cbn; lia|]. split; [cbn; lia|]. left. split; reflexivity.
    - intros [H|(i & j & -> & -> & Hj & H1 & H2 & H)]; [auto|]. cbn [length] in *. right. lia. }
  split. { split; [|reflexivity]. intros _ q Hq. replace q with 0 by lia. reflexivity. }
  split; [apply sorted_1|]. split; [apply sorted_1|].
  split; intros x; cbn [In]; (split; [intros [<-|[]]; exists 0; split; [lia|]; split; [lia|]; apply allst_nil; lia|intros (j & -> & Hj & _); left; lia]).
Qed.

(* the parse tree *)
Inductive tree (nodes : list node) : nat -> nat -> list Z -> Prop :=
| tree_segment i l : nth_error nodes i = Some (NSegment l) -> l <> [] -> Forall (fun c => c <> star) l -> tree nodes 1 i l
| tree_wildcard i : nth_error nodes i = Some NWildcard -> tree nodes 1 i [star]
| tree_concat h i l r a b : nth_error nodes i = Some (NConcat l r) -> tree nodes h l a -> tree nodes 1 r b -> tree nodes (S h) i (a ++ b).

Lemma tree_nonempty nodes h i l : tree nodes h i l -> l <> [].
Proof. induction 1 as [| |? ? ? ? ? ? ? ? IH]; [assumption|discriminate|]. destruct a; [congruence|discriminate]. Qed.
Lemma tree_app nodes more h i l : tree nodes h i l -> tree (nodes ++ more) h i l.
Proof.
  assert (G : forall n, nth_error nodes i = Some n -> True) by auto.
  induction 1; [apply tree_segment|apply tree_wildcard|eapply tree_concat]; eauto;
  (rewrite nth_error_app1; [eassumption|eapply nth_lt; eassumption]).
Qed.
Lemma tree_pos nodes h i l : tree nodes h i l -> 1 <= h.
Proof. induction 1; lia. Qed.

Lemma add_node_spec nodes h i l : tree nodes h i l -> forall fuel n k, h <= fuel -> wf n ->
  exists r n', add_node fuel nodes n i k = Some (r, n') /\ added k n n' l r.
Proof.
  induction 1 as [i l Hn Hne Hf|i Hn|h i l r a b Hn T1 IH1 T2 IH2]; intros fuel n k Hfuel W;
  (destruct fuel as [|fuel]; [lia|]); cbn [add_node]; rewrite Hn; cbn [obind].
  - destruct l as [|ch l]; [congruence|]. inversion Hf as [|? ? Hc Hl]; subst.
    destruct (added_char k n ch W Hc) as (n1 & -> & A).
    destruct (add_characters_spec k l n n1 [ch] (length (fst n)) (length (fst n))) as (n2 & last & E & A2); auto; [discriminate|].
    rewrite E. cbn [obind]. exists (Result false [length (fst n)] [last]), n2. auto.
  - destruct (added_star k n W) as (n1 & n2 & -> & E & A). rewrite E. cbn [obind]. eauto.
  - pose proof (tree_pos _ _ _ _ T1).
    destruct (IH1 fuel n k ltac:(lia) W) as (r1 & n1 & -> & A1). cbn [obind].
    destruct (IH2 fuel n1 k ltac:(lia) (proj1 A1)) as (r2 & n2 & -> & A2). cbn [obind].
    destruct (added_concat k n n1 n2 a b r1 r2 (tree_nonempty _ _ _ _ T1) (tree_nonempty _ _ _ _ T2) A1 A2) as (n3 & r3 & E & A3).
    exists r3, n3. auto.
Qed.

(* parsing *)
Definition rest (t : token * list Z) : list Z :=
  match fst t with TSegment l => l ++ snd t | TWildcard => star :: snd t | TEnd => [] end.
Definition tok_ok (t : token * list Z) : Prop :=
  match fst t with
  | TSegment l => l <> [] /\ Forall (fun c => c <> star) l
  | TWildcard => True
  | TEnd => True
  end.

Lemma segment_end_spec l : fst (segment_end star l) ++ snd (segment_end star l) = l /\
  Forall (fun c => c <> star) (fst (segment_end star l)).
Proof.
  induction l as [|c l [IH1 IH2]]; cbn; [auto|]. destruct (Z.eqb_spec c star); cbn; [auto|].
  destruct (segment_end star l) as [a b]. cbn in *. split; [congruence|]. constructor; assumption.
Qed.
Lemma extract_spec l : rest (extract_next_token star l) = l /\ tok_ok (extract_next_token star l).
Proof.
  destruct l as [|c l]; cbn; [split; [reflexivity|exact I]|]. destruct (Z.eqb_spec c star) as [->|Hc].
  - split; [reflexivity|exact I].
  - pose proof (segment_end_spec l) as [H1 H2]. destruct (segment_end star l) as [a b]. cbn in *. unfold rest, tok_ok. cbn.
    split; [congruence|]. split; [discriminate|]. constructor; assumption.
Qed.
Lemma extract_end l : fst (extract_next_token star l) = TEnd <-> l = [].
Proof.
  destruct l as [|c l]; cbn; [split; reflexivity|]. split; [|discriminate].
  destruct (Z.eqb c star); cbn; [discriminate|]. destruct (segment_end star l). discriminate.
Qed.

Lemma parse_element_spec nodes t : fst t <> TEnd -> tok_ok t ->
  exists nd t' l, parse_element star (nodes, t) = Some (length nodes, (nodes ++ [nd], t')) /\
    tree (nodes ++ [nd]) 1 (length nodes) l /\ rest t = l ++ rest t' /\ tok_ok t' /\ length (rest t') < length (rest t).
Proof.
  intros Hne Hok. destruct t as [tok curr]. cbn in Hne, Hok. unfold parse_element.
  destruct (extract_spec curr) as [E1 E2].
  assert (Hnth : forall nd, nth_error (nodes ++ [nd]) (length nodes) = Some nd).
  { intros nd. rewrite nth_error_app2, Nat.sub_diag by lia. reflexivity. }
  destruct tok as [lexeme| |]; [| |congruence].
  - destruct Hok as [H1 H2]. eexists _, _, lexeme. split; [reflexivity|]. split; [apply tree_segment; auto|].
    rewrite E1. split; [reflexivity|]. split; [assumption|]. unfold rest. cbn. rewrite app_length. destruct lexeme; [congruence|cbn; lia].
  - eexists _, _, [star]. split; [reflexivity|]. split; [apply tree_wildcard; auto|].
    rewrite E1. split; [reflexivity|]. split; [assumption|]. unfold rest. cbn. lia.
Qed.

Lemma parse_loop_spec fuel : forall i nodes t h l, tree nodes h i l -> h <= length nodes -> tok_ok t -> length (rest t) < fuel ->
  exists h' i' nodes' t', parse_loop star fuel i (nodes, t) = Some (i', (nodes', t')) /\ fst t' = TEnd /\
    tree nodes' h' i' (l ++ rest t) /\ h' <= length nodes'.
Proof.
  induction fuel as [|fuel IH]; intros i nodes t h l T Hh Hok Hf; [lia|]. cbn [parse_loop fst snd].
  destruct (fst t) eqn:Et.
  3: { exists h, i, nodes, t. split; [reflexivity|]. split; [assumption|]. unfold rest. rewrite Et, app_nil_r. auto. }
  all: (destruct (parse_element_spec nodes t) as (nd & t' & l2 & -> & T2 & E2 & Hok2 & Hlen); [congruence|assumption|]; cbn [obind];
    destruct (IH (length (nodes ++ [nd])) ((nodes ++ [nd]) ++ [NConcat i (length nodes)]) t' (S h) (l ++ l2)) as (h' & i' & nodes' & t2 & E & F & T' & L);
    [ eapply tree_concat; [rewrite nth_error_app2, Nat.sub_diag by lia; reflexivity|now apply tree_app, tree_app|now apply tree_app]
    | rewrite !app_length; cbn; lia | assumption | lia
    | exists h', i', nodes', t2; split; [exact E|]; split; [assumption|]; rewrite E2, app_assoc; auto ]).
Qed.

Lemma parse_spec p : p <> [] -> let t := extract_next_token star p in
  exists h i nodes t', parse_concatenation star (S (length p)) ([], t) = Some (i, (nodes, t')) /\ fst t' = TEnd /\
    tree nodes h i p /\ h <= length nodes.
Proof.
  intros Hp t. destruct (extract_spec p) as [E1 E2]. fold t in E1, E2.
  unfold parse_concatenation. destruct (parse_element_spec [] t) as (nd & t' & l2 & -> & T2 & E & Hok2 & Hlen); [|assumption|].
  { intros C. apply extract_end in C. contradiction. }
  cbn [obind]. destruct (parse_loop_spec (S (length p)) (length (@nil node)) ([] ++ [nd]) t' 1 l2 T2) as (h' & i' & nodes' & t2 & E' & F & T' & L).
  - cbn; lia.
  - assumption.
  - rewrite E1 in Hlen. lia.
  - exists h', i', nodes', t2. split; [exact E'|]. split; [assumption|]. rewrite <- E, E1 in T'. auto.
Qed.

(* a pattern *)
Lemma add_pattern_spec b p ident : wf (b_nfa b) -> sorted (b_start b) ->
  let n := b_nfa b in let k := length (b_patterns b) in
  exists b', add_pattern star b p ident = Some b' /\ b_patterns b' = b_patterns b ++ [ident] /\
    wf (b_nfa b') /\ sorted (b_start b') /\
    info (b_nfa b') = info n ++ map (fun c => (k, sym c)) p ++ [(k, SCharacter 0)] /\
    (forall x y, follow (b_nfa b') x y <-> follow n x y \/ exists i j, x = length (fst n) + i /\ y = length (fst n) + j /\ link p i j) /\
    (forall x, In x (b_start b') <-> In x (b_start b) \/ exists j, x = length (fst n) + j /\ j <= length p /\ allst p 0 j).
Proof.
  intros W So n k. unfold add_pattern. fold n k. destruct (list_eq_dec Z.eq_dec p []) as [->|Hp].
  - cbn [extract_next_token]. destruct (register_position_spec n (SCharacter 0) k W) as (n1 & -> & W2 & I2 & F2).
    eexists. split; [reflexivity|]. cbn [b_patterns b_nfa b_start map app]. split; [reflexivity|]. split; [assumption|].
    split; [auto with sm|]. split; [assumption|]. split.
    + intros x y. rewrite F2. split; [auto|]. intros [H|(i & j & _ & _ & H & _)]; [assumption|]. cbn in H. lia.
    + intros x. rewrite union_in. cbn [In length]. split.
      * intros [H|[<-|[]]]; [auto|]. right. exists 0. split; [lia|]. split; [lia|]. apply allst_nil. lia.
      * intros [H|(j & -> & Hj & _)]; [auto|]. right; left. lia.
  - destruct (parse_spec p Hp) as (h & i & nodes & t' & E & Ht & T & Hh).
    assert (He : fst (extract_next_token star p) <> TEnd) by (intros C; apply extract_end in C; contradiction).
    destruct (extract_next_token star p) as [tok curr]. cbn [fst] in He.
    destruct (add_node_spec nodes h i p T (length nodes) n k Hh W) as (r & n1 & EA & A).
    pose proof (added_length _ _ _ _ _ A) as L1. destruct A as (W1 & I1 & F1 & U1 & SF1 & SL1 & FP1 & LP1).
    destruct (register_position_spec n1 (SCharacter 0) k W1) as (n2 & ER & W2 & I2 & F2).
    assert (L2 : length (fst n2) = S (length (fst n1))) by (rewrite <- !info_length, I2, app_length; cbn; lia).
    destruct (register_followpos_1_spec (r_lastpos r) (length (fst n1)) n2 W2) as (n3 & EF & W3 & I3 & F3).
    { intros q Hq. apply LP1 in Hq. destruct Hq as (j & -> & Hj & _). lia. }
    set (start := if r_nullable r then union (union (b_start b) (r_firstpos r)) [length (fst n1)] else union (b_start b) (r_firstpos r)).
    exists (Builder (b_patterns b ++ [ident]) n3 start). split.
    { assert (G : (let? (node_index, p0) := parse_concatenation star (Datatypes.S (length p)) ([], (tok, curr)) in
        match fst (snd p0) with
        | TEnd => let? (result, n0) := add_node (length (fst p0)) (fst p0) n node_index k in
          let start := union (b_start b) (r_firstpos result) in
          let (term_pos, n0) := register_position n0 (SCharacter 0) k in
          let start := if r_nullable result then union start [term_pos] else start in
          let? n0 := register_followpos_1 n0 (r_lastpos result) term_pos in
          Some (Builder (b_patterns b ++ [ident]) n0 start)
        | _ => None end) = Some (Builder (b_patterns b ++ [ident]) n3 start)).
      { rewrite E. cbn [obind fst snd]. rewrite Ht, EA. cbn [obind]. rewrite ER. cbn zeta. rewrite EF. cbn [obind]. reflexivity. }
      destruct tok; [exact G|exact G|contradiction]. }
    cbn [b_patterns b_nfa b_start]. split; [reflexivity|]. split; [assumption|].
    split; [unfold start; destruct (r_nullable r); auto with sm|].
    split; [rewrite I3, I2, I1, <- app_assoc; reflexivity|]. split.
    + intros x y. rewrite F3, F2, F1, LP1. split.
      * intros [[H|(i1 & j & -> & -> & Hj & H)]|[(j & -> & Hj & H) ->]].
        -- auto.
        -- right. exists i1, j. auto.
        -- right. exists j, (length p). split; [reflexivity|]. split; [lia|]. split; [assumption|]. split; [lia|]. right. auto.
      * intros [H|(i1 & j & -> & -> & H)]; [auto|]. destruct (Nat.eq_dec j (length p)) as [->|Hj].
        -- right. split; [|lia]. exists i1. destruct H as (H1 & H2 & [[-> H3]|[H3 H4]]); [apply st_lt in H3; lia|]. auto.
        -- left; right. exists i1, j. split; [reflexivity|]. split; [reflexivity|]. split; [|assumption]. destruct H as (_ & H & _). lia.
    + intros x. assert (G : In x start <-> In x (b_start b) \/ In x (r_firstpos r) \/ (r_nullable r = true /\ x = length (fst n1))).
      { unfold start. destruct (r_nullable r); rewrite ?union_in; cbn [In]; intuition auto; discriminate. }
      rewrite G, FP1, U1. split.
      * intros [H|[(j & -> & Hj & H)|[H ->]]]; [auto|right; exists j; split; [reflexivity|]; split; [lia|assumption]|].
        right. exists (length p). auto.
      * intros [H|(j & -> & Hj & H)]; [auto|]. destruct (Nat.eq_dec j (length p)) as [->|Hne].
        -- right; right. split; [assumption|lia].
        -- right; left. exists j. split; [reflexivity|]. split; [lia|assumption].
Qed.
End P.
