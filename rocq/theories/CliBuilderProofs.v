(* The builder of the NFA computes the sets of first, last and following positions. *)
From Coq Require Import List Arith Bool Lia Sorted.
From Verif Require Import CliPatternModel CliPatternSpec CliGlushkov CliTreeProofs ArrLib.
Import ListNotations.

(* ---- sets ---- *)

Lemma set_insert_in x l : forall y, In y (fst (set_insert x l)) <-> y = x \/ In y l.
Proof.
  induction l as [|z l IH]; intros y; cbn [set_insert fst In]; [intuition|].
  destruct (Nat.ltb_spec x z); [cbn [fst In]; intuition|]. destruct (Nat.ltb_spec z x).
  - specialize (IH y). destruct (set_insert x l) as [l2 b]. cbn [fst In] in *. intuition.
  - cbn [fst In]. assert (x = z) by lia. subst. intuition.
Qed.

Definition incr (l : list nat) : Prop := StronglySorted lt l.

Lemma set_insert_incr x l : incr l -> incr (fst (set_insert x l)).
Proof.
  induction 1 as [|z l H IH F]; cbn [set_insert]; [repeat constructor|].
  destruct (Nat.ltb_spec x z); [cbn [fst]|].
  - constructor; [now constructor|]. constructor; [assumption|]. rewrite Forall_forall in *. intros y Hy. specialize (F y Hy). lia.
  - destruct (Nat.ltb_spec z x).
    + pose proof (set_insert_in x l) as S. destruct (set_insert x l) as [l2 b]. cbn [fst] in *. constructor; [exact IH|].
      rewrite Forall_forall in *. intros y Hy. apply S in Hy as [->|Hy]; [assumption|]. now apply F.
    + cbn [fst]. now constructor.
Qed.

Lemma set_insert_flag x l : incr l -> (snd (set_insert x l) = true <-> ~ In x l).
Proof.
  induction 1 as [|z l H IH F]; cbn [set_insert snd In]; [intuition|]. rewrite Forall_forall in F.
  destruct (Nat.ltb_spec x z); [cbn [snd]|].
  - split; [|reflexivity]. intros _ [->|Hi]; [lia|]. specialize (F x Hi). lia.
  - destruct (Nat.ltb_spec z x).
    + destruct (set_insert x l) as [l2 b]. cbn [snd] in *. rewrite IH. intuition lia.
    + cbn [snd]. assert (x = z) by lia. subst. intuition discriminate.
Qed.

(* ---- the NFA ---- *)

Definition follow (n : nfa) (p : nat) : list nat :=
  match nth_error (n_positions n) p with Some pos => p_follow pos | None => [] end.
Definition info (n : nfa) : list (nat * (nat * psym)) :=
  map (fun pos => (p_pattern pos, (p_ipos pos, p_sym pos))) (n_positions n).
Definition nfa_incr (n : nfa) : Prop := forall p, incr (follow n p).

(* positions with the given symbols have been added, and pairs of successive positions *)
Definition extends (pi : nat) (n n' : nfa) (news : list (nat * psym)) (pairs : list (nat * nat)) : Prop :=
  n_start n' = n_start n /\ info n' = info n ++ map (pair pi) news /\
  (forall p q, In q (follow n' p) <-> In q (follow n p) \/ In (p, q) pairs) /\
  (nfa_incr n -> nfa_incr n').

Lemma info_length n : length (info n) = length (n_positions n).
Proof. apply map_length. Qed.

Lemma extends_length pi n n' news pairs : extends pi n n' news pairs ->
  length (n_positions n') = length (n_positions n) + length news.
Proof. intros (_ & H & _). rewrite <- !info_length, H, app_length, map_length. reflexivity. Qed.

Lemma extends_refl pi n : extends pi n n [] [].
Proof. split; [reflexivity|]. split; [cbn [map]; now rewrite app_nil_r|]. split; [|auto]. intros p q. cbn [In]. tauto. Qed.

Lemma extends_trans pi n1 n2 n3 s1 s2 f1 f2 : extends pi n1 n2 s1 f1 -> extends pi n2 n3 s2 f2 ->
  extends pi n1 n3 (s1 ++ s2) (f1 ++ f2).
Proof.
  intros (A1 & A2 & A3 & A4) (B1 & B2 & B3 & B4). split; [congruence|]. split.
  - rewrite B2, A2, map_app, app_assoc. reflexivity.
  - split; [|auto]. intros p q. rewrite B3, A3, in_app_iff. tauto.
Qed.

Lemma extends_pairs pi n n' s f g : (forall x, In x f <-> In x g) -> extends pi n n' s f -> extends pi n n' s g.
Proof. intros H (A1 & A2 & A3 & A4). repeat split; try assumption; intros; [apply A3 in H0; now rewrite <- H|]. apply A3. now rewrite H. Qed.

Lemma create_extends pi n ipos s : extends pi n (fst (create_position n pi ipos s)) [(ipos, s)] [].
Proof.
  unfold create_position. cbn [fst]. split; [reflexivity|]. split; [unfold info; cbn [n_positions]; now rewrite map_app|]. 
  assert (F : forall p, follow (Nfa (n_positions n ++ [Position pi ipos s []]) (n_start n)) p = follow n p).
  { intros p. unfold follow. cbn [n_positions]. destruct (Nat.lt_ge_cases p (length (n_positions n))) as [H|H].
    - now rewrite nth_error_app1.
    - rewrite nth_error_app2 by assumption. rewrite (proj2 (nth_error_None (n_positions n) p) H).
      destruct (p - length (n_positions n)) as [|k]; [reflexivity|]. destruct k; reflexivity. }
  split.
  - intros p q. rewrite F. cbn [In]. tauto.
  - intros H p. rewrite F. apply H.
Qed.

Lemma register_follow_ok pi n p q : p < length (n_positions n) ->
  exists n', nfa_register_followpos n p q = Some n' /\ extends pi n n' [] [(p, q)].
Proof.
  intros Hp. unfold nfa_register_followpos. destruct (nth_error (n_positions n) p) as [pos|] eqn:E; [|apply nth_error_None in E; lia].
  cbn [obind]. set (pos2 := Position _ _ _ _).
  destruct (set_nth (n_positions n) p pos2) as [l|] eqn:Es; [|rewrite set_nth_some in Es by assumption; discriminate].
  cbn [obind]. eexists. split; [reflexivity|]. pose proof (fun i => nth_error_set_nth _ _ _ _ i Es) as Hn.
  assert (F : forall x, follow (Nfa l (n_start n)) x = if x =? p then fst (set_insert q (follow n p)) else follow n x).
  { intros x. unfold follow at 1. cbn [n_positions]. rewrite Hn. destruct (Nat.eqb_spec x p) as [->|Hx]; [|reflexivity].
    unfold follow. now rewrite E. }
  split; [reflexivity|]. split; [|split].
  - cbn [map]. rewrite app_nil_r. unfold info. cbn [n_positions].
    apply set_nth_inv in Es as [_ ->]. rewrite map_app. cbn [map].
    replace (n_positions n) with (firstn p (n_positions n) ++ pos :: skipn (S p) (n_positions n)) at 3.
    + rewrite map_app. reflexivity.
    + clear - E. revert p E. generalize (n_positions n) as l. induction l as [|x l IH]; intros p E; [destruct p; discriminate|].
      destruct p; cbn [nth_error] in E; [injection E as ->; reflexivity|]. cbn [firstn skipn app]. f_equal. apply (IH p E).
  - intros x y. rewrite F. destruct (Nat.eqb_spec x p) as [->|Hx].
    + rewrite set_insert_in. cbn [In]. intuition congruence.
    + cbn [In]. intuition congruence.
  - intros H x. rewrite F. destruct (x =? p); [apply set_insert_incr|]; apply H.
Qed.

(* ---- ranges ---- *)

Definition denotes (ps : list nat) (r : pos_set) (l : list nat) : Prop :=
  exists pre post, ps = pre ++ l ++ post /\ fst r = length pre /\ snd r = length pre + length l.

Lemma denotes_app ps r l more : denotes ps r l -> denotes (ps ++ more) r l.
Proof. intros (pre & post & -> & A & B). exists pre, (post ++ more). rewrite <- !app_assoc. auto. Qed.

Lemma denotes_nil ps : denotes ps (0, 0) [].
Proof. exists [], ps. auto. Qed.

Lemma nth_mid {A} (pre : list A) x post i : i = length pre -> nth_error (pre ++ x :: post) i = Some x.
Proof. intros ->. rewrite nth_error_app2, Nat.sub_diag by lia. reflexivity. Qed.

Lemma union_rest_ok l : forall fuel pre post i i_end, length l < fuel -> i = length pre -> i_end = i + length l ->
  union_rest fuel (pre ++ l ++ post) i i_end = Some (pre ++ l ++ post ++ l).
Proof.
  induction l as [|x l IH]; intros fuel pre post i i_end Hf Hi He; (destruct fuel as [|fuel]; [cbn [length] in Hf; lia|]); cbn [union_rest].
  - cbn [length] in He. replace (i <? i_end) with false by (symmetry; apply Nat.ltb_ge; lia). now rewrite !app_nil_r.
  - cbn [length] in *. replace (i <? i_end) with true by (symmetry; apply Nat.ltb_lt; lia).
    change ((x :: l) ++ post) with (x :: l ++ post). rewrite nth_mid by exact Hi. cbn [obind].
    replace ((pre ++ x :: l ++ post) ++ [x]) with ((pre ++ [x]) ++ l ++ post ++ [x]) by (rewrite <- !app_assoc; cbn; rewrite <- !app_assoc; reflexivity).
    rewrite IH by (rewrite ?app_length; cbn [length]; lia). rewrite <- !app_assoc. reflexivity.
Qed.

Lemma denotes_nth ps r l k x : denotes ps r l -> nth_error l k = Some x -> nth_error ps (fst r + k) = Some x.
Proof.
  intros (pre & post & -> & A & B) H. rewrite A, nth_error_app2 by lia. replace (length pre + k - length pre) with k by lia.
  rewrite nth_error_app1; [exact H|]. apply nth_error_Some. congruence.
Qed.

Lemma denotes_tail ps r x l : denotes ps r (x :: l) -> denotes ps (S (fst r), snd r) l.
Proof.
  intros (pre & post & -> & A & B). exists (pre ++ [x]), post. rewrite <- app_assoc. cbn [app fst snd length] in *.
  rewrite app_length. cbn [length]. repeat split; lia.
Qed.

Lemma union_loop_ok la : forall fuel ps a lb b, denotes ps a la -> denotes ps b lb -> length la + length lb < fuel ->
  (forall x y, In x la -> In y lb -> x < y) ->
  union_loop fuel ps (fst a) (snd a) (fst b) (snd b) = Some (ps ++ la ++ lb).
Proof.
  induction la as [|x la IH]; intros fuel ps a lb b Da Db Hf Hlt; (destruct fuel as [|fuel]; [lia|]); cbn [union_loop].
  - destruct Da as (pre & post & E & A1 & A2). cbn [length] in A2. replace (fst a =? snd a) with true by (symmetry; apply Nat.eqb_eq; lia).
    destruct Db as (pre' & post' & -> & B1 & B2). cbn [app]. rewrite B1, B2.
    rewrite union_rest_ok; [rewrite <- !app_assoc; reflexivity|cbn [length] in Hf; lia|reflexivity|reflexivity].
  - pose proof Da as (pre & post & E & A1 & A2). cbn [length] in A2.
    replace (fst a =? snd a) with false by (symmetry; apply Nat.eqb_neq; lia).
    pose proof (denotes_nth ps a (x :: la) 0 x Da eq_refl) as Hn. rewrite Nat.add_0_r in Hn. rewrite Hn. cbn [obind].
    destruct lb as [|y lb].
    + destruct Db as (pre' & post' & E' & B1 & B2). cbn [length] in B2. replace (fst b =? snd b) with true by (symmetry; apply Nat.eqb_eq; lia).
      rewrite E, A1, A2. rewrite union_rest_ok; [rewrite app_nil_r, <- !app_assoc; reflexivity|cbn [length] in *; lia|reflexivity|reflexivity].
    + pose proof Db as (pre' & post' & E' & B1 & B2). cbn [length] in B2.
      replace (fst b =? snd b) with false by (symmetry; apply Nat.eqb_neq; lia).
      pose proof (denotes_nth ps b (y :: lb) 0 y Db eq_refl) as Hm. rewrite Nat.add_0_r in Hm. rewrite Hm. cbn [obind].
      replace (x <? y) with true by (symmetry; apply Nat.ltb_lt; apply Hlt; now left).
      pose proof (IH fuel (ps ++ [x]) (S (fst a), snd a) (y :: lb) b) as G. cbn [fst snd] in G. rewrite G.
      * rewrite <- app_assoc. reflexivity.
      * apply denotes_app. now apply (denotes_tail ps a x).
      * now apply denotes_app.
      * cbn [length] in *. lia.
      * intros u v Hu Hv. apply Hlt; [now right|exact Hv].
Qed.

Lemma denotes_len ps r l : denotes ps r l -> length l <= length ps.
Proof. intros (pre & post & -> & _). rewrite !app_length. lia. Qed.

Lemma union_ok ps a b la lb : denotes ps a la -> denotes ps b lb -> (forall x y, In x la -> In y lb -> x < y) ->
  exists r, position_set_union ps a b = Some (ps ++ la ++ lb, r) /\ denotes (ps ++ la ++ lb) r (la ++ lb).
Proof.
  intros Da Db Hlt. unfold position_set_union. rewrite (union_loop_ok la _ ps a lb b Da Db).
  - cbn [obind]. eexists. split; [reflexivity|]. exists ps, []. rewrite app_nil_r. cbn [fst snd]. rewrite !app_length. auto.
  - apply denotes_len in Da, Db. lia.
  - exact Hlt.
Qed.

(* ---- registering ---- *)

Lemma register_2_ok pi ps l2 : forall n p r, denotes ps r l2 -> p < length (n_positions n) ->
  exists n', register_followpos_2 (length l2) n ps p (fst r) = Some n' /\ extends pi n n' [] (map (pair p) l2).
Proof.
  induction l2 as [|y l2 IH]; intros n p r Hd Hp; cbn [length register_followpos_2 map].
  - exists n. split; [reflexivity|apply extends_refl].
  - pose proof (denotes_nth ps r (y :: l2) 0 y Hd eq_refl) as Hn. rewrite Nat.add_0_r in Hn. rewrite Hn. cbn [obind].
    destruct (register_follow_ok pi n p y Hp) as (n1 & -> & E1). cbn [obind].
    destruct (IH n1 p (S (fst r), snd r)) as (n2 & E & E2).
    + now apply (denotes_tail ps r y).
    + rewrite (extends_length _ _ _ _ _ E1). cbn [length]. lia.
    + cbn [fst] in E. exists n2. split; [exact E|]. exact (extends_trans pi n n1 n2 [] [] _ _ E1 E2).
Qed.

Lemma denotes_count ps r l : denotes ps r l -> snd r - fst r = length l.
Proof. intros (pre & post & _ & A & B). lia. Qed.

Lemma register_3_ok pi ps l2 r2 l1 : denotes ps r2 l2 -> forall n r1, denotes ps r1 l1 -> (forall p, In p l1 -> p < length (n_positions n)) ->
  exists n', register_followpos_3 (length l1) n ps (fst r1) r2 = Some n' /\ extends pi n n' [] (list_prod l1 l2).
Proof.
  intros D2. induction l1 as [|x l1 IH]; intros n r1 D1 Hp; cbn [length register_followpos_3 list_prod].
  - exists n. split; [reflexivity|apply extends_refl].
  - pose proof (denotes_nth ps r1 (x :: l1) 0 x D1 eq_refl) as Hn. rewrite Nat.add_0_r in Hn. rewrite Hn. cbn [obind].
    rewrite (denotes_count ps r2 l2 D2).
    destruct (register_2_ok pi ps l2 n x r2 D2) as (n1 & -> & E1); [apply Hp; now left|]. cbn [obind].
    destruct (IH n1 (S (fst r1), snd r1)) as (n2 & E & E2).
    + now apply (denotes_tail ps r1 x).
    + intros p Hi. rewrite (extends_length _ _ _ _ _ E1). cbn [length]. rewrite Nat.add_0_r. apply Hp. now right.
    + cbn [fst] in E. exists n2. split; [exact E|]. exact (extends_trans pi n n1 n2 [] [] _ _ E1 E2).
Qed.

Lemma register_ok pi ps l1 l2 r1 r2 n : denotes ps r1 l1 -> denotes ps r2 l2 -> (forall p, In p l1 -> p < length (n_positions n)) ->
  exists n', register_followpos n ps r1 r2 = Some n' /\ extends pi n n' [] (list_prod l1 l2).
Proof.
  intros D1 D2 Hp. unfold register_followpos. rewrite (denotes_count ps r1 l1 D1). now apply register_3_ok.
Qed.

(* ---- results ---- *)

Definition res_ok (ps : list nat) (res : result) (r : re) : Prop :=
  denotes ps (r_first res) (gfirst r) /\ denotes ps (r_last res) (glast r) /\ r_nullable res = gnull r.

Lemma res_ok_app ps more res r : res_ok ps res r -> res_ok (ps ++ more) res r.
Proof. intros (A & B & C). repeat split; try assumption; now apply denotes_app. Qed.

Lemma integrate_seq_ok pi n ps res1 res2 r1 r2 lo mid hi : res_ok ps res1 r1 -> res_ok ps res2 r2 ->
  wf lo r1 mid -> wf mid r2 hi -> hi <= length (n_positions n) ->
  exists n' more res, integrate_seq n ps res1 res2 = Some (n', ps ++ more, res) /\
    extends pi n n' [] (list_prod (glast r1) (gfirst r2)) /\ res_ok (ps ++ more) res (Cat r1 r2).
Proof.
  intros (A1 & A2 & A3) (B1 & B2 & B3) W1 W2 Hh. unfold integrate_seq.
  destruct (register_ok pi ps _ _ _ _ n A2 B1) as (n' & -> & E).
  { intros p Hp. apply (glast_range r1 lo mid) in Hp; [|exact W1]. apply wf_le in W2. lia. }
  cbn [obind]. rewrite A3, B3.
  assert (Lt1 : forall x y, In x (gfirst r1) -> In y (gfirst r2) -> x < y).
  { intros x y Hx Hy. apply (gfirst_range r1 lo mid) in Hx; [|exact W1]. apply (gfirst_range r2 mid hi) in Hy; [|exact W2]. lia. }
  assert (Lt2 : forall x y, In x (glast r1) -> In y (glast r2) -> x < y).
  { intros x y Hx Hy. apply (glast_range r1 lo mid) in Hx; [|exact W1]. apply (glast_range r2 mid hi) in Hy; [|exact W2]. lia. }
  assert (F : exists more f, (if negb (gnull r1) then Some (ps, r_first res1) else position_set_union ps (r_first res1) (r_first res2)) =
    Some (ps ++ more, f) /\ denotes (ps ++ more) f (gfirst (Cat r1 r2))).
  { cbn [gfirst]. destruct (gnull r1); cbn [negb].
    - destruct (union_ok ps _ _ _ _ A1 B1 Lt1) as (f & -> & D). eexists _, f. split; [reflexivity|exact D].
    - exists [], (r_first res1). rewrite app_nil_r. auto. }
  destruct F as (more1 & f & -> & Df). cbn [obind].
  assert (G : exists more l, (if negb (gnull r2) then Some (ps ++ more1, r_last res2)
      else position_set_union (ps ++ more1) (r_last res1) (r_last res2)) =
    Some ((ps ++ more1) ++ more, l) /\ denotes ((ps ++ more1) ++ more) l (glast (Cat r1 r2))).
  { cbn [glast]. destruct (gnull r2); cbn [negb].
    - destruct (union_ok (ps ++ more1) (r_last res1) (r_last res2) (glast r1) (glast r2)) as (l & -> & D);
        [now apply denotes_app|now apply denotes_app|exact Lt2|]. eexists _, l. split; [reflexivity|exact D].
    - exists [], (r_last res2). rewrite app_nil_r. split; [reflexivity|now apply denotes_app]. }
  destruct G as (more2 & l & -> & Dl). cbn [obind]. exists n', (more1 ++ more2). rewrite app_assoc. eexists. split; [reflexivity|].
  split; [exact E|]. repeat split; cbn [r_first r_last r_nullable gnull]; [now apply denotes_app|exact Dl].
Qed.

Lemma integrate_alt_ok ps res1 res2 r1 r2 lo mid hi : res_ok ps res1 r1 -> res_ok ps res2 r2 ->
  wf lo r1 mid -> wf mid r2 hi ->
  exists more res, integrate_alt ps res1 res2 = Some (ps ++ more, res) /\ res_ok (ps ++ more) res (Union r1 r2).
Proof.
  intros (A1 & A2 & A3) (B1 & B2 & B3) W1 W2. unfold integrate_alt.
  destruct (union_ok ps _ _ _ _ A1 B1) as (f & -> & Df).
  { intros x y Hx Hy. apply (gfirst_range r1 lo mid) in Hx; [|exact W1]. apply (gfirst_range r2 mid hi) in Hy; [|exact W2]. lia. }
  cbn [obind]. set (more1 := gfirst r1 ++ gfirst r2) in *.
  destruct (union_ok (ps ++ more1) (r_last res1) (r_last res2) (glast r1) (glast r2)) as (l & -> & Dl); [now apply denotes_app|now apply denotes_app| |].
  { intros x y Hx Hy. apply (glast_range r1 lo mid) in Hx; [|exact W1]. apply (glast_range r2 mid hi) in Hy; [|exact W2]. lia. }
  cbn [obind]. exists (more1 ++ glast r1 ++ glast r2). rewrite (app_assoc ps). eexists. split; [reflexivity|].
  repeat split; cbn [r_first r_last r_nullable gnull]; [now apply denotes_app|exact Dl|now rewrite A3, B3].
Qed.

(* ---- the loop ---- *)

Fixpoint esteps (e : telem) : nat :=
  match e with
  | ESym _ _ => 1
  | EOpt q | ERep q => S (S (qsteps q))
  | EAlt b => S (S (bsteps b))
  end
with qsteps (q : tseq) : nat :=
  match q with
  | SNil => 0
  | SCons e q => esteps e + qsteps q
  end
with bsteps (b : tbranches) : nat :=
  match b with
  | BOne q => S (S (qsteps q))
  | BCons q b => S (S (qsteps q)) + bsteps b
  end.

Section Loop.
  Variable st : structure.
  Variable pi : nat.
  Notation loop := (build_loop st pi).

  Lemma eqb_refl_iff a b (P : Prop) : (a = true <-> P) -> (b = true <-> P) -> Bool.eqb a b = true.
  Proof. intros H1 H2. destruct a, b; cbn; try reflexivity; exfalso; intuition discriminate. Qed.

  Lemma loop_ok :
    (forall te e q i res stack n ps r1 lo fuel, rep_elem st e te -> i < q_num_elems q ->
      nth_error (ps_elems st) (q_elems_offset q + i) = Some e -> res_ok ps res r1 -> wf lo r1 (length (n_positions n)) ->
      exists n' more res' pairs, loop (esteps te + fuel) (FSeq q i res) stack n ps = loop fuel (FSeq q (S i) res') stack n' (ps ++ more) /\
        extends pi n n' (elem_syms te) pairs /\ res_ok (ps ++ more) res' (Cat r1 (re_elem te (length (n_positions n)))) /\
        (forall x, In x (gfol (Cat r1 (re_elem te (length (n_positions n))))) <-> In x (gfol r1) \/ In x pairs)) /\
    (forall tq q i cnt res stack n ps r1 lo fuel, rep_elems st (q_elems_offset q + i) cnt tq -> i + cnt = q_num_elems q ->
      res_ok ps res r1 -> wf lo r1 (length (n_positions n)) ->
      exists n' more res' pairs, loop (qsteps tq + fuel) (FSeq q i res) stack n ps = loop fuel (FSeq q (q_num_elems q) res') stack n' (ps ++ more) /\
        extends pi n n' (seq_syms tq) pairs /\ res_ok (ps ++ more) res' (re_seq r1 tq (length (n_positions n))) /\
        (forall x, In x (gfol (re_seq r1 tq (length (n_positions n)))) <-> In x (gfol r1) \/ In x pairs)) /\
    (forall tb a i cnt res stack n ps r1 lo fuel, rep_branches st (a_seqs_offset a + i) cnt tb -> i + cnt = a_num_seqs a ->
      res_ok ps res r1 -> wf lo r1 (length (n_positions n)) ->
      exists n' more res' pairs, loop (bsteps tb + fuel) (FAlt a i res) stack n ps = loop fuel (FAlt a (a_num_seqs a) res') stack n' (ps ++ more) /\
        extends pi n n' (branches_syms tb) pairs /\ res_ok (ps ++ more) res' (re_branches r1 tb (length (n_positions n))) /\
        (forall x, In x (gfol (re_branches r1 tb (length (n_positions n)))) <-> In x (gfol r1) \/ In x pairs)).
  Proof.
    assert (E0 : forall ps, res_ok ps (Result (0, 0) (0, 0) true) Eps).
    { intros ps. repeat split; cbn; apply denotes_nil. }
    apply tree_ind.
    - (* symbol *)
      intros ipos s e q i res stack n ps r1 lo fuel Hr Hi He Hres Hwf. inversion Hr as [? ? ? T1 T2 T3| | |]; subst.
      cbn [esteps Nat.add build_loop]. replace (i <? q_num_elems q) with true by (symmetry; now apply Nat.ltb_lt).
      rewrite He. cbn [obind]. rewrite T1, T2. cbn [Nat.ltb Nat.leb obind]. rewrite T3. cbn [obind].
      replace (S ipos - 1) with ipos by lia.
      pose proof (create_extends pi n ipos s) as Ex. pose proof (extends_length _ _ _ _ _ Ex) as Len. cbn [length] in Len.
      destruct (create_position n pi ipos s) as [n1 pos] eqn:Ec. cbn [fst] in *.
      assert (pos = length (n_positions n)) by (unfold create_position in Ec; congruence). subst pos.
      unfold make_position_set.
      destruct (integrate_seq_ok pi n1 (ps ++ [length (n_positions n)]) res
        (Result (length ps, S (length ps)) (length ps, S (length ps)) false) r1 (Sym (length (n_positions n))) lo
        (length (n_positions n)) (S (length (n_positions n)))) as (n2 & more & res2 & -> & Ex2 & R2).
      + now apply res_ok_app.
      + repeat split; cbn [r_first r_last gfirst glast]; exists ps, []; cbn [app fst snd length]; repeat split; lia.
      + exact Hwf.
      + cbn. auto.
      + lia.
      + cbn [obind]. exists n2, ([length (n_positions n)] ++ more), res2. rewrite app_assoc. eexists. split; [reflexivity|].
        split; [exact (extends_trans pi n n1 n2 _ _ _ _ Ex Ex2)|]. split; [exact R2|].
        intros x. cbn [re_elem gfol]. rewrite !in_app_iff. cbn [In]. tauto.
    - (* optionality *)
      intros tq IH e q i res stack n ps r1 lo fuel Hr Hi He Hres Hwf. inversion Hr as [|? ? T1 T2| |]; subst.
      inversion T2 as [? sq ? S1 S2 S3]; subst.
      cbn [esteps]. replace (S (S (qsteps tq)) + fuel) with (S (qsteps tq + S fuel)) by lia. cbn [build_loop].
      replace (i <? q_num_elems q) with true by (symmetry; now apply Nat.ltb_lt).
      rewrite He. cbn [obind]. rewrite T1. unfold init_seq. rewrite S1. cbn [obind].
      destruct (IH sq 0 (q_num_elems sq) (Result (0, 0) (0, 0) true) (FSeq q i res :: stack) n ps Eps (length (n_positions n)) (S fuel))
        as (n1 & more1 & res1 & pairs1 & -> & Ex1 & R1 & P1); [now rewrite Nat.add_0_r|lia|apply E0|reflexivity|].
      cbn [build_loop]. rewrite Nat.ltb_irrefl. pose proof R1 as (_ & _ & Rn). rewrite Rn.
      rewrite (eqb_refl_iff _ _ (m_seq tq []) (seq_nullable tq _) S3). rewrite He. cbn [obind]. rewrite T1.
      pose proof (extends_length _ _ _ _ _ Ex1) as Len.
      destruct (integrate_seq_ok pi n1 (ps ++ more1) res (Result (r_first res1) (r_last res1) true) r1
        (re_elem (EOpt tq) (length (n_positions n))) lo (length (n_positions n)) (length (n_positions n1))) as (n2 & more2 & res2 & -> & Ex2 & R2).
      + now apply res_ok_app.
      + destruct R1 as (Ra & Rb & _). repeat split; cbn [r_first r_last re_elem gfirst glast]; assumption.
      + exact Hwf.
      + rewrite Len. apply re_elem_wf.
      + lia.
      + cbn [obind]. exists n2, (more1 ++ more2), res2. rewrite app_assoc. eexists. split; [reflexivity|]. split.
        { replace (elem_syms (EOpt tq)) with (seq_syms tq ++ []) by apply app_nil_r. exact (extends_trans pi n n1 n2 _ _ _ _ Ex1 Ex2). }
        split; [exact R2|]. intros x. cbn [re_elem gfol gfirst]. rewrite !in_app_iff, P1. cbn [gfol In]. tauto.
    - (* repetition *)
      intros tq IH e q i res stack n ps r1 lo fuel Hr Hi He Hres Hwf. inversion Hr as [| |? ? T1 T2|]; subst.
      inversion T2 as [? sq ? S1 S2 S3]; subst.
      cbn [esteps]. replace (S (S (qsteps tq)) + fuel) with (S (qsteps tq + S fuel)) by lia. cbn [build_loop].
      replace (i <? q_num_elems q) with true by (symmetry; now apply Nat.ltb_lt).
      rewrite He. cbn [obind]. rewrite T1. unfold init_seq. rewrite S1. cbn [obind].
      destruct (IH sq 0 (q_num_elems sq) (Result (0, 0) (0, 0) true) (FSeq q i res :: stack) n ps Eps (length (n_positions n)) (S fuel))
        as (n1 & more1 & res1 & pairs1 & -> & Ex1 & R1 & P1); [now rewrite Nat.add_0_r|lia|apply E0|reflexivity|].
      cbn [build_loop]. rewrite Nat.ltb_irrefl. pose proof R1 as (Ra & Rb & Rn). rewrite Rn.
      rewrite (eqb_refl_iff _ _ (m_seq tq []) (seq_nullable tq _) S3). rewrite He. cbn [obind]. rewrite T1.
      pose proof (extends_length _ _ _ _ _ Ex1) as Len.
      destruct (register_ok pi (ps ++ more1) _ _ _ _ n1 Rb Ra) as (n2 & -> & Ex2).
      { intros p Hp. apply (glast_range _ (length (n_positions n)) (length (n_positions n1))) in Hp; [lia|]. rewrite Len. apply re_seq_wf. }
      cbn [obind]. pose proof (extends_length _ _ _ _ _ Ex2) as Len2. cbn [length] in Len2.
      destruct (integrate_seq_ok pi n2 (ps ++ more1) res res1 r1
        (re_elem (ERep tq) (length (n_positions n))) lo (length (n_positions n)) (length (n_positions n1))) as (n3 & more2 & res2 & -> & Ex3 & R2).
      + now apply res_ok_app.
      + repeat split; cbn [re_elem gfirst glast gnull]; assumption.
      + exact Hwf.
      + rewrite Len. apply re_elem_wf.
      + lia.
      + cbn [obind]. exists n3, (more1 ++ more2), res2. rewrite app_assoc. eexists. split; [reflexivity|]. split.
        { replace (elem_syms (ERep tq)) with ((seq_syms tq ++ []) ++ []) by (cbn [elem_syms]; now rewrite !app_nil_r).
          exact (extends_trans pi n n2 n3 _ _ _ _ (extends_trans pi n n1 n2 _ _ _ _ Ex1 Ex2) Ex3). }
        split; [exact R2|]. intros x. cbn [re_elem gfol gfirst]. rewrite !in_app_iff, P1. cbn [gfol In]. tauto.
    - (* alternatives *)
      intros tb IH e q i res stack n ps r1 lo fuel Hr Hi He Hres Hwf. inversion Hr as [| | |? a ? T1 T2 T3]; subst.
      cbn [esteps]. replace (S (S (bsteps tb)) + fuel) with (S (bsteps tb + S fuel)) by lia. cbn [build_loop].
      replace (i <? q_num_elems q) with true by (symmetry; now apply Nat.ltb_lt).
      rewrite He. cbn [obind]. rewrite T1. unfold init_alt. rewrite T2. cbn [obind].
      destruct (IH a 0 (a_num_seqs a) empty_result (FSeq q i res :: stack) n ps Empty (length (n_positions n)) (S fuel))
        as (n1 & more1 & res1 & pairs1 & -> & Ex1 & R1 & P1); [now rewrite Nat.add_0_r|lia|repeat split; cbn; apply denotes_nil|reflexivity|].
      cbn [build_loop]. rewrite Nat.ltb_irrefl. rewrite He. cbn [obind]. rewrite T1.
      pose proof (extends_length _ _ _ _ _ Ex1) as Len.
      destruct (integrate_seq_ok pi n1 (ps ++ more1) res res1 r1
        (re_elem (EAlt tb) (length (n_positions n))) lo (length (n_positions n)) (length (n_positions n1))) as (n2 & more2 & res2 & -> & Ex2 & R2).
      + now apply res_ok_app.
      + exact R1.
      + exact Hwf.
      + rewrite Len. apply re_elem_wf.
      + lia.
      + cbn [obind]. exists n2, (more1 ++ more2), res2. rewrite app_assoc. eexists. split; [reflexivity|]. split.
        { replace (elem_syms (EAlt tb)) with (branches_syms tb ++ []) by apply app_nil_r. exact (extends_trans pi n n1 n2 _ _ _ _ Ex1 Ex2). }
        split; [exact R2|]. intros x. cbn [re_elem gfol gfirst]. rewrite !in_app_iff, P1. cbn [gfol In]. tauto.
    - (* no more elements *)
      intros q i cnt res stack n ps r1 lo fuel Hr Hi Hres Hwf. inversion Hr; subst. rewrite Nat.add_0_r in Hi. subst i.
      exists n, [], res, []. rewrite app_nil_r. cbn [qsteps Nat.add re_seq seq_syms]. split; [reflexivity|]. split; [apply extends_refl|].
      split; [exact Hres|]. cbn [In]. tauto.
    - (* one element and the rest *)
      intros te IHe tq IHq q i cnt res stack n ps r1 lo fuel Hr Hi Hres Hwf. inversion Hr as [|? cnt' e ? ? N1 N2 N3]; subst.
      cbn [qsteps]. replace (esteps te + qsteps tq + fuel) with (esteps te + (qsteps tq + fuel)) by lia.
      destruct (IHe e q i res stack n ps r1 lo (qsteps tq + fuel) N2) as (n1 & more1 & res1 & pairs1 & -> & Ex1 & R1 & P1); try assumption; [lia|].
      pose proof (extends_length _ _ _ _ _ Ex1) as Len.
      destruct (IHq q (S i) cnt' res1 stack n1 (ps ++ more1) (Cat r1 (re_elem te (length (n_positions n)))) lo fuel)
        as (n2 & more2 & res2 & pairs2 & -> & Ex2 & R2 & P2).
      + now rewrite Nat.add_succ_r.
      + lia.
      + exact R1.
      + cbn [wf]. exists (length (n_positions n)). split; [exact Hwf|]. rewrite Len. apply re_elem_wf.
      + exists n2, (more1 ++ more2), res2, (pairs1 ++ pairs2). rewrite app_assoc. split; [reflexivity|]. cbn [seq_syms re_seq]. rewrite Len in *.
        split; [exact (extends_trans pi n n1 n2 _ _ _ _ Ex1 Ex2)|]. split; [exact R2|].
        intros x. rewrite P2, P1, in_app_iff. tauto.
    - (* last branch *)
      intros tq IH a i cnt res stack n ps r1 lo fuel Hr Hi Hres Hwf. inversion Hr as [? ? T2|]; subst.
      inversion T2 as [? sq ? S1 S2 S3]; subst.
      cbn [bsteps]. replace (S (S (qsteps tq)) + fuel) with (S (qsteps tq + S fuel)) by lia. cbn [build_loop].
      replace (i <? a_num_seqs a) with true by (symmetry; apply Nat.ltb_lt; lia).
      unfold init_seq. rewrite S1. cbn [obind].
      destruct (IH sq 0 (q_num_elems sq) (Result (0, 0) (0, 0) true) (FAlt a i res :: stack) n ps Eps (length (n_positions n)) (S fuel))
        as (n1 & more1 & res1 & pairs1 & -> & Ex1 & R1 & P1); [now rewrite Nat.add_0_r|lia|apply E0|reflexivity|].
      cbn [build_loop]. rewrite Nat.ltb_irrefl. pose proof R1 as (Ra & Rb & Rn). rewrite Rn.
      rewrite (eqb_refl_iff _ _ (m_seq tq []) (seq_nullable tq _) S3).
      pose proof (extends_length _ _ _ _ _ Ex1) as Len.
      destruct (integrate_alt_ok (ps ++ more1) res res1 r1 (re_seq Eps tq (length (n_positions n))) lo (length (n_positions n)) (length (n_positions n1)))
        as (more2 & res2 & -> & R2); [now apply res_ok_app|exact R1|exact Hwf|rewrite Len; apply re_seq_wf|].
      cbn [obind]. exists n1, (more1 ++ more2), res2, pairs1. rewrite app_assoc. split; [f_equal; f_equal; lia|].
      split; [exact Ex1|]. split; [exact R2|]. intros x. cbn [re_branches gfol]. rewrite in_app_iff, P1. cbn [gfol In]. tauto.
    - (* branch and the rest *)
      intros tq IH tb IHb a i cnt res stack n ps r1 lo fuel Hr Hi Hres Hwf. inversion Hr as [|? cnt' ? ? T2 T3]; subst.
      inversion T2 as [? sq ? S1 S2 S3]; subst.
      cbn [bsteps]. replace (S (S (qsteps tq)) + bsteps tb + fuel) with (S (qsteps tq + S (bsteps tb + fuel))) by lia. cbn [build_loop].
      replace (i <? a_num_seqs a) with true by (symmetry; apply Nat.ltb_lt; lia).
      unfold init_seq. rewrite S1. cbn [obind].
      destruct (IH sq 0 (q_num_elems sq) (Result (0, 0) (0, 0) true) (FAlt a i res :: stack) n ps Eps (length (n_positions n)) (S (bsteps tb + fuel)))
        as (n1 & more1 & res1 & pairs1 & -> & Ex1 & R1 & P1); [now rewrite Nat.add_0_r|lia|apply E0|reflexivity|].
      cbn [build_loop]. rewrite Nat.ltb_irrefl. pose proof R1 as (Ra & Rb & Rn). rewrite Rn.
      rewrite (eqb_refl_iff _ _ (m_seq tq []) (seq_nullable tq _) S3).
      pose proof (extends_length _ _ _ _ _ Ex1) as Len.
      destruct (integrate_alt_ok (ps ++ more1) res res1 r1 (re_seq Eps tq (length (n_positions n))) lo (length (n_positions n)) (length (n_positions n1)))
        as (more2 & res2 & -> & R2); [now apply res_ok_app|exact R1|exact Hwf|rewrite Len; apply re_seq_wf|].
      cbn [obind].
      destruct (IHb a (S i) cnt' res2 stack n1 ((ps ++ more1) ++ more2) (Union r1 (re_seq Eps tq (length (n_positions n)))) lo fuel)
        as (n2 & more3 & res3 & pairs2 & -> & Ex2 & R3 & P2).
      + now rewrite Nat.add_succ_r.
      + lia.
      + exact R2.
      + cbn [wf]. exists (length (n_positions n)). split; [exact Hwf|]. rewrite Len. apply re_seq_wf.
      + exists n2, (more1 ++ more2 ++ more3), res3, (pairs1 ++ pairs2). rewrite !app_assoc. split; [reflexivity|]. cbn [branches_syms re_branches]. rewrite Len in *.
        split; [exact (extends_trans pi n n1 n2 _ _ _ _ Ex1 Ex2)|]. split; [rewrite <- !app_assoc in *; exact R3|].
        intros x. rewrite P2, in_app_iff. cbn [gfol]. rewrite in_app_iff, P1. cbn [gfol In]. tauto.
  Qed.
End Loop.
