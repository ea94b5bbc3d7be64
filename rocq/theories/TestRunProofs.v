(* Lemmas about the execution of tests. *)
From Coq Require Import ZArith Bool List Arith Lia Permutation.
From Verif Require Import TestRunModel TestRunSpec ArrLib.
Import ListNotations.
Open Scope nat_scope.

(* traces *)
Lemma begun_app a b : begun (a ++ b) = begun a ++ begun b.
Proof. apply flat_map_app. Qed.
Lemma ended_app a b : ended (a ++ b) = ended a ++ ended b.
Proof. apply flat_map_app. Qed.
Lemma of_thread_app t a b : of_thread t (a ++ b) = of_thread t a ++ of_thread t b.
Proof. apply filter_app. Qed.
Lemma of_thread_one t ev : of_thread t [ev] = if Nat.eqb (event_thread ev) t then [ev] else [].
Proof. cbn. now destruct (Nat.eqb _ _). Qed.
Lemma of_thread_in t ev tr : In ev (of_thread t tr) <-> In ev tr /\ event_thread ev = t.
Proof. unfold of_thread. rewrite filter_In, Nat.eqb_eq. reflexivity. Qed.

Lemma oaat_ended t l : one_at_a_time t l -> ended l = begun l.
Proof. induction 1 as [|e l H IH]; [reflexivity|]. cbn. f_equal. exact IH. Qed.
Lemma oaat_snoc t l e : one_at_a_time t l -> one_at_a_time t (l ++ [Begin t e; End t e]).
Proof. induction 1 as [|e2 l H IH]; cbn; constructor; [constructor|assumption]. Qed.
Lemma oaat_app t l m : one_at_a_time t l -> one_at_a_time t m -> one_at_a_time t (l ++ m).
Proof. induction 1 as [|e2 l H IH]; intros Hm; cbn; [assumption|constructor; auto]. Qed.
Lemma oaat_over t l : one_at_a_time t l -> forall t' e, In (Begin t' e) l -> In (End t' e) l.
Proof. induction 1 as [|e2 l H IH]; intros t' e Hin; cbn in *; [tauto|]. destruct Hin as [E|[E|Hin]]; [|discriminate|]; [injection E as <- <-|]; auto. Qed.

(* the executions that end on certain threads *)
Definition ended_by (P : nat -> bool) (tr : list event) : list exec := flat_map (fun ev => match ev with End t e => if P t then [e] else [] | _ => [] end) tr.
Lemma ended_by_app P a b : ended_by P (a ++ b) = ended_by P a ++ ended_by P b.
Proof. apply flat_map_app. Qed.
Lemma ended_by_one i tr : ended_by (fun t => Nat.eqb t i) tr = ended (of_thread i tr).
Proof.
  induction tr as [|ev tr IH]; [reflexivity|]. cbn [ended_by flat_map of_thread filter].
  change (flat_map _ tr) with (ended_by (fun t => Nat.eqb t i) tr). rewrite IH. destruct ev as [t|t e|t e|t]; cbn [event_thread]; destruct (Nat.eqb t i); reflexivity.
Qed.
Lemma ended_by_split P Q R tr : (forall t, P t = Q t || R t) -> (forall t, Q t && R t = false) -> Permutation (ended_by P tr) (ended_by Q tr ++ ended_by R tr).
Proof.
  intros H1 H2. induction tr as [|ev tr IH]; [reflexivity|]. cbn [ended_by flat_map].
  change (flat_map _ tr) with (ended_by P tr) at 1. change (flat_map (fun ev0 => match ev0 with End t e => if Q t then [e] else [] | _ => [] end) tr) with (ended_by Q tr).
  change (flat_map (fun ev0 => match ev0 with End t e => if R t then [e] else [] | _ => [] end) tr) with (ended_by R tr).
  destruct ev as [t|t e|t e|t]; cbn [app]; try exact IH. rewrite H1. specialize (H2 t). destruct (Q t), (R t); cbn [orb app] in *; try discriminate.
  - now constructor.
  - now apply Permutation_cons_app.
  - exact IH.
Qed.
Lemma ended_by_all P tr : (forall t, P t = true) -> ended_by P tr = ended tr.
Proof. intros H. apply flat_map_ext. intros [t|t e|t e|t]; try reflexivity. now rewrite H. Qed.
Lemma ended_by_none P tr : (forall t, P t = false) -> ended_by P tr = [].
Proof. intros H. induction tr as [|[t|t e|t e|t] tr IH]; cbn; rewrite ?H; auto. Qed.
Lemma ended_by_ext P Q tr : (forall ev, In ev tr -> P (event_thread ev) = Q (event_thread ev)) -> ended_by P tr = ended_by Q tr.
Proof.
  intros H. unfold ended_by. rewrite !flat_map_concat_map. f_equal. apply map_ext_in. intros [t|t e|t e|t] Hin; try reflexivity. specialize (H _ Hin). cbn in H. now rewrite H.
Qed.

(* when each thread has ended what it has begun, then all in all what has begun has ended *)
Lemma over_perm m : forall tr, (forall ev, In ev tr -> event_thread ev < m) -> (forall t, t < m -> ended (of_thread t tr) = begun (of_thread t tr)) ->
  Permutation (ended tr) (begun tr).
Proof.
  assert (P : forall (f : event -> list exec) p tr, Permutation (flat_map f tr) (flat_map f (filter p tr) ++ flat_map f (filter (fun ev => negb (p ev)) tr))).
  { intros f p tr. induction tr as [|ev tr IH]; [reflexivity|]. cbn. destruct (p ev); cbn [negb flat_map].
    - rewrite <- app_assoc. now apply Permutation_app_head.
    - rewrite IH, !app_assoc. apply Permutation_app_tail, Permutation_app_comm. }
  induction m as [|m IH]; intros tr Ht He.
  - destruct tr as [|ev tr]; [reflexivity|]. specialize (Ht ev (or_introl eq_refl)). lia.
  - unfold ended at 1, begun at 1. rewrite (P _ (fun ev => Nat.eqb (event_thread ev) m) tr).
    rewrite (P (fun ev => match ev with Begin _ e => [e] | _ => [] end) (fun ev => Nat.eqb (event_thread ev) m) tr).
    change (Permutation (ended (of_thread m tr) ++ ended (filter (fun ev => negb (Nat.eqb (event_thread ev) m)) tr))
      (begun (of_thread m tr) ++ begun (filter (fun ev => negb (Nat.eqb (event_thread ev) m)) tr))).
    rewrite He by lia. apply Permutation_app_head. apply IH.
    + intros ev Hin. apply filter_In in Hin. destruct Hin as [Hin Hn]. specialize (Ht _ Hin). apply negb_true_iff, Nat.eqb_neq in Hn. lia.
    + intros t Hm. assert (E : of_thread t (filter (fun ev => negb (Nat.eqb (event_thread ev) m)) tr) = of_thread t tr).
      { unfold of_thread. clear - Hm. induction tr as [|ev tr IH]; [reflexivity|]. cbn. destruct (Nat.eqb_spec (event_thread ev) m) as [->|Hn]; cbn [negb].
        - destruct (Nat.eqb_spec m t); [lia|assumption].
        - cbn. now rewrite IH. }
      rewrite E. apply He. lia.
Qed.

(* counters *)
Lemma sum_app f a b : sum f (a ++ b) = (sum f a + sum f b)%Z.
Proof. induction a as [|e a IH]; cbn; [reflexivity|]. change (fold_right _ _ ?l) with (sum f l) at 1. fold (sum f (a ++ b)) in *. fold (sum f a) in *. lia. Qed.
Lemma sum_perm f a b : Permutation a b -> sum f a = sum f b.
Proof. induction 1; cbn; try fold (sum f l) in *; try fold (sum f l') in *; lia. Qed.
Lemma expected_app res a b : expected_counters res (a ++ b) = add_counters (expected_counters res a) (expected_counters res b).
Proof. unfold expected_counters, add_counters. cbn. now rewrite !sum_app. Qed.
Lemma expected_perm res a b : Permutation a b -> expected_counters res a = expected_counters res b.
Proof. intros H. unfold expected_counters. now rewrite !(sum_perm _ _ _ H). Qed.
Lemma expected_one res e : expected_counters res [e] = count_result cleared (res e).
Proof. unfold expected_counters, count_result, sum. cbn [fold_right cleared n_failed n_checks n_failed_checks]. f_equal; lia. Qed.
Lemma add_count a c r : add_counters a (count_result c r) = count_result (add_counters a c) r.
Proof. unfold add_counters, count_result. cbn. f_equal; lia. Qed.
Lemma add_cleared a : add_counters a cleared = a.
Proof. destruct a. unfold add_counters. cbn. f_equal; lia. Qed.
Lemma cleared_add a : add_counters cleared a = a.
Proof. destruct a. reflexivity. Qed.
Lemma expected_snoc res l e : expected_counters res (l ++ [e]) = count_result (expected_counters res l) (res e).
Proof. now rewrite expected_app, expected_one, add_count, add_cleared. Qed.

(* lists of threads *)
Definition is_returned (th : thread) : bool := match th_place th with Returned => true | _ => false end.
Definition num_returned (ths : list thread) : nat := length (filter is_returned ths).
Lemma num_returned_set : forall ths i th th' ths', nth_error ths i = Some th -> is_returned th = false -> set_nth ths i th' = Some ths' ->
  num_returned ths' = num_returned ths + if is_returned th' then 1 else 0.
Proof.
  unfold num_returned. induction ths as [|x ths IH]; intros [|i] th th' ths' Hn Hr Hs; cbn in *; try discriminate.
  - injection Hn as ->. injection Hs as <-. cbn. rewrite Hr. destruct (is_returned th'); cbn; lia.
  - destruct (set_nth ths i th') as [l|] eqn:E; [|discriminate]. cbn in Hs. injection Hs as <-. cbn. specialize (IH i th th' l Hn Hr E). destruct (is_returned x); cbn; lia.
Qed.
Lemma num_returned_le ths : num_returned ths <= length ths.
Proof. unfold num_returned. induction ths as [|x ths IH]; cbn; [lia|]. destruct (is_returned x); cbn; lia. Qed.
Lemma num_returned_lt : forall ths i th, nth_error ths i = Some th -> is_returned th = false -> num_returned ths < length ths.
Proof.
  unfold num_returned. induction ths as [|x ths IH]; intros [|i] th Hn Hr; cbn in *; try discriminate.
  - injection Hn as ->. rewrite Hr. pose proof (num_returned_le ths). unfold num_returned in *. lia.
  - specialize (IH i th Hn Hr). destruct (is_returned x); cbn; lia.
Qed.
Lemma num_returned_but_one : forall ths i th, nth_error ths i = Some th -> is_returned th = false -> S (num_returned ths) = length ths ->
  forall t th', nth_error ths t = Some th' -> t <> i -> is_returned th' = true.
Proof.
  unfold num_returned. induction ths as [|x ths IH]; intros [|i] th Hn Hr Hc [|t] th' Ht Hne; cbn in *; try discriminate; try congruence.
  - injection Hn as ->. rewrite Hr in Hc. destruct (is_returned th') eqn:E; [reflexivity|]. pose proof (num_returned_lt ths t th' Ht E). unfold num_returned in *. lia.
  - injection Ht as ->. destruct (is_returned th'); [reflexivity|]. pose proof (num_returned_lt ths i th Hn Hr). unfold num_returned in *. lia.
  - destruct (is_returned x); cbn in Hc.
    + eapply (IH i th Hn Hr); [lia|eassumption|lia].
    + pose proof (num_returned_lt ths i th Hn Hr). unfold num_returned in *. lia.
Qed.
Lemma all_returned_spec ths : all_returned ths = true <-> forall t th, nth_error ths t = Some th -> th_place th = Returned.
Proof.
  unfold all_returned. rewrite forallb_forall. split.
  - intros H t th E. apply nth_error_In in E. specialize (H th E). now destruct (th_place th).
  - intros H th Hin. apply In_nth_error in Hin. destruct Hin as [t E]. now rewrite (H t th E).
Qed.

Section Inv.
Variables (res : exec -> result) (concur nonconcur : list exec) (n : nat).

(* how the report of a thread that has returned ends *)
Definition ending (r : root) (t : nat) : list event :=
  match last_to_end r with Some i => if Nat.eqb t i then [] else [ThreadEnd t] | None => [ThreadEnd t] end.

Definition thread_ok (r : root) (t : nat) (th : thread) : Prop :=
  match th_place th with
  | Before => of_thread t (trace r) = []
  | Inside e => exists l, of_thread t (trace r) = ThreadBegin t :: l ++ [Begin t e] /\ one_at_a_time t l /\ th_counters th = expected_counters res (begun l)
  | Returned => next r = length concur /\ exists l, of_thread t (trace r) = ThreadBegin t :: l ++ ending r t /\ one_at_a_time t l
  end.

Definition finalized (r : root) (ths : list thread) (t : nat) : Prop :=
  exists th, nth_error ths t = Some th /\ th_place th = Returned /\ last_to_end r <> Some t.

Record inv (r : root) (ths : list thread) : Prop := Inv {
  inv_len : length ths = n;
  inv_next : next r <= length concur;
  inv_begun : begun (trace r) = firstn (next r) concur;
  inv_threads : forall t th, nth_error ths t = Some th -> thread_ok r t th;
  inv_other : forall ev, In ev (trace r) -> event_thread ev < n;
  inv_last : match last_to_end r with
    | None => num_ended r = num_returned ths /\ (nonconcur <> [] -> 0 < n -> num_ended r < n)
    | Some i => i < n /\ nonconcur <> [] /\ all_returned ths = true
    end;
  inv_totals : forall P, (forall t, P t = true <-> finalized r ths t) -> totals r = expected_counters res (ended_by P (trace r)) }.

Lemma inv_initial : inv (fst (initial n)) (snd (initial n)).
Proof.
  unfold initial. cbn [fst snd]. split; cbn [next trace totals num_ended last_to_end].
  - apply repeat_length.
  - lia.
  - reflexivity.
  - intros t th E. apply nth_error_In, repeat_spec in E. subst th. reflexivity.
  - intros ev [].
  - split; [|auto]. unfold num_returned. clear. induction n as [|m IH]; [reflexivity|assumption].
  - reflexivity.
Qed.

(* a thread has the mutex *)
Record mid (r : root) (ths : list thread) (i : nat) (c : counters) : Prop := Mid {
  mid_len : length ths = n;
  mid_i : exists th, nth_error ths i = Some th /\ is_returned th = false;
  mid_next : next r <= length concur;
  mid_begun : begun (trace r) = firstn (next r) concur;
  mid_this : exists l, of_thread i (trace r) = ThreadBegin i :: l /\ one_at_a_time i l /\ c = expected_counters res (begun l);
  mid_threads : forall t th, nth_error ths t = Some th -> t <> i -> thread_ok r t th;
  mid_other : forall ev, In ev (trace r) -> event_thread ev < n;
  mid_last : last_to_end r = None;
  mid_ended : num_ended r = num_returned ths /\ (nonconcur <> [] -> 0 < n -> num_ended r < n);
  mid_totals : forall P, (forall t, P t = true <-> finalized r ths t) -> totals r = expected_counters res (ended_by P (trace r)) }.

Lemma mid_mutex r ths i c r' th' ths' : mid r ths i c -> with_mutex concur nonconcur n r i c = (r', th') -> set_nth ths i th' = Some ths' -> inv r' ths'.
Proof.
  intros [Ml (th & Hi & Hr) Mn Mb (l & Hl & Ho & Hc) Mt Mo Ma (Me & Me2) Mp] E Es.
  assert (Hin : i < n) by (rewrite <- Ml; apply nth_error_Some; congruence).
  assert (Len : length ths' = n) by (rewrite <- Ml; eapply set_nth_length; eassumption).
  assert (Nth : forall t, nth_error ths' t = if Nat.eqb t i then Some th' else nth_error ths t).
  { intros t. rewrite (nth_error_set_nth _ _ _ _ t Es). reflexivity. }
  assert (Cnt : num_returned ths' = num_returned ths + if is_returned th' then 1 else 0) by (eapply num_returned_set; eassumption).
  unfold with_mutex in E. destruct (nth_error concur (next r)) as [e|] eqn:En.
  - injection E as <- <-. cbn in Cnt. assert (Hlt : next r < length concur) by (apply nth_error_Some; congruence).
    split; cbn [next trace totals num_ended last_to_end].
    + assumption.
    + lia.
    + rewrite begun_app, Mb. cbn [begun flat_map app]. clear - En. revert En. generalize (next r). induction concur as [|x C IH]; intros [|k] En; cbn in *; try discriminate.
      * now injection En as ->.
      * now rewrite (IH k).
    + intros t th2 E2. rewrite Nth in E2. destruct (Nat.eqb_spec t i) as [->|Ne].
      * injection E2 as <-. unfold thread_ok. cbn [th_place th_counters trace]. exists l. rewrite of_thread_app, of_thread_one, Hl. cbn [event_thread]. rewrite Nat.eqb_refl. cbn [app]. auto.
      * specialize (Mt t th2 E2 Ne). assert (X : of_thread t (trace r ++ [Begin i e]) = of_thread t (trace r)).
        { rewrite of_thread_app, of_thread_one. cbn [event_thread]. destruct (Nat.eqb_spec i t); [congruence|]. apply app_nil_r. }
        unfold thread_ok in *. cbn [trace next ending last_to_end] in *. rewrite X. destruct (th_place th2); try exact Mt. destruct Mt as (M1 & M2). lia.
    + intros ev Hv. apply in_app_iff in Hv. destruct Hv as [Hv|[<-|[]]]; [auto|exact Hin].
    + rewrite Ma. split; [lia|assumption].
    + intros P HP. rewrite ended_by_app. cbn [ended_by flat_map app]. rewrite app_nil_r. apply Mp. intros t. rewrite HP. unfold finalized. cbn [last_to_end].
      split; intros (th2 & A & B & D); rewrite ?Nth in *.
      * destruct (Nat.eqb_spec t i) as [->|Ne]; [injection A as <-; discriminate|]. eauto.
      * exists th2. rewrite ?Nth. destruct (Nat.eqb_spec t i) as [->|Ne]; [|auto]. assert (th2 = th) by congruence. subst th2. unfold is_returned in Hr. now rewrite B in Hr.
  - apply nth_error_None in En. assert (Hnext : next r = length concur) by lia.
    destruct (match nonconcur with [] => false | _ => Nat.eqb (n - num_ended r) 1 end) eqn:Ed.
    + injection E as <- <-. cbn in Cnt. assert (Nc : nonconcur <> []) by (intros ->; discriminate).
      assert (Hone : n - num_ended r = 1) by (destruct nonconcur; [discriminate|]; now apply Nat.eqb_eq). clear Ed.
      assert (Hall : forall t th2, nth_error ths' t = Some th2 -> is_returned th2 = true).
      { intros t th2 E2. rewrite Nth in E2. destruct (Nat.eqb_spec t i) as [->|Ne]; [injection E2 as <-; reflexivity|].
        eapply num_returned_but_one; [exact Hi|exact Hr| |exact E2|exact Ne]. pose proof (num_returned_lt _ _ _ Hi Hr). lia. }
      split; cbn [next trace totals num_ended last_to_end].
      * assumption.
      * lia.
      * assumption.
      * intros t th2 E2. rewrite Nth in E2. unfold thread_ok, ending. cbn [next trace last_to_end]. destruct (Nat.eqb_spec t i) as [->|Ne].
        -- injection E2 as <-. cbn [th_place]. split; [assumption|]. exists l. rewrite app_nil_r. auto.
        -- specialize (Mt t th2 E2 Ne). unfold thread_ok, ending in Mt. rewrite Ma in Mt. exact Mt.
      * assumption.
      * split; [assumption|]. split; [assumption|]. apply all_returned_spec. intros t th2 E2. specialize (Hall t th2 E2). unfold is_returned in Hall. now destruct (th_place th2).
      * intros P HP. apply Mp. intros t. rewrite HP. unfold finalized. cbn [last_to_end]. rewrite Ma. split; intros (th2 & A & B & D); rewrite ?Nth in *.
        -- destruct (Nat.eqb_spec t i) as [->|Ne]; [congruence|]. exists th2. split; [assumption|]. split; [assumption|discriminate].
        -- exists th2. rewrite ?Nth. destruct (Nat.eqb_spec t i) as [->|Ne]; [|split; [assumption|split; [assumption|congruence]]].
           assert (th2 = th) by congruence. subst th2. unfold is_returned in Hr. now rewrite B in Hr.
    + injection E as <- <-. cbn in Cnt. split; cbn [next trace totals num_ended last_to_end].
      * assumption.
      * assumption.
      * rewrite begun_app. cbn. now rewrite app_nil_r.
      * intros t th2 E2. rewrite Nth in E2. unfold thread_ok, ending. cbn [next trace last_to_end]. rewrite of_thread_app, of_thread_one. cbn [event_thread]. rewrite Ma.
        destruct (Nat.eqb_spec t i) as [->|Ne].
        -- injection E2 as <-. cbn [th_place]. split; [assumption|]. exists l. rewrite Hl, Nat.eqb_refl. auto.
        -- destruct (Nat.eqb_spec i t); [congruence|]. rewrite app_nil_r. specialize (Mt t th2 E2 Ne). unfold thread_ok, ending in Mt. rewrite Ma in Mt. exact Mt.
      * intros ev Hv. apply in_app_iff in Hv. destruct Hv as [Hv|[<-|[]]]; [auto|exact Hin].
      * rewrite Ma. split; [lia|]. intros Nc Hn. specialize (Me2 Nc Hn). destruct nonconcur; [congruence|]. apply Nat.eqb_neq in Ed. lia.
      * intros P HP. rewrite ended_by_app. cbn [ended_by flat_map app]. rewrite app_nil_r.
        assert (Pi : P i = true). { apply HP. exists (Thread Returned c). rewrite Nth, Nat.eqb_refl. cbn [last_to_end]. rewrite Ma. split; [reflexivity|]. split; [reflexivity|discriminate]. }
        assert (X1 : forall t, P t = (P t && negb (Nat.eqb t i)) || Nat.eqb t i).
        { intros t. destruct (Nat.eqb t i) eqn:X; [apply Nat.eqb_eq in X; subst t; rewrite Pi; reflexivity|now rewrite andb_true_r, orb_false_r]. }
        assert (X2 : forall t, (P t && negb (Nat.eqb t i)) && Nat.eqb t i = false) by (intros t; destruct (Nat.eqb t i); rewrite ?andb_false_r; reflexivity).
        rewrite (expected_perm res _ _ (ended_by_split P (fun t => P t && negb (Nat.eqb t i)) (fun t => Nat.eqb t i) (trace r) X1 X2)).
        rewrite expected_app, ended_by_one, Hl. change (ended (ThreadBegin i :: l)) with (ended l). rewrite (oaat_ended i l Ho), <- Hc. f_equal.
        apply Mp. intros t. rewrite andb_true_iff, HP, negb_true_iff, Nat.eqb_neq. unfold finalized. cbn [last_to_end]. rewrite Ma. split.
        -- intros ((th2 & A & B & D) & Ne). rewrite Nth in A. destruct (Nat.eqb_spec t i); [congruence|]. eauto.
        -- intros (th2 & A & B & D). assert (Ne : t <> i) by (intros ->; assert (th2 = th) by congruence; subst th2; unfold is_returned in Hr; now rewrite B in Hr).
           split; [|assumption]. exists th2. rewrite ?Nth. destruct (Nat.eqb_spec t i); [congruence|]. auto.
Qed.

Lemma inv_step r ths i r' ths' : inv r ths -> step res concur nonconcur n (r, ths) i = Some (r', ths') -> inv r' ths'.
Proof.
  intros [Ml Mn Mb Mt Mo Ma Mp] E. cbn [step] in E. destruct (nth_error ths i) as [th|] eqn:Hi; [|discriminate].
  assert (Hin : i < n) by (rewrite <- Ml; apply nth_error_Some; congruence).
  destruct (th_place th) as [|e|] eqn:Ep; [| |discriminate].
  all: assert (Hr : is_returned th = false) by (unfold is_returned; now rewrite Ep).
  all: assert (Hla : last_to_end r = None) by (destruct (last_to_end r) as [k|]; [|reflexivity]; destruct Ma as (_ & _ & Ma);
    rewrite all_returned_spec in Ma; specialize (Ma i th Hi); congruence).
  all: rewrite Hla in Ma; pose proof (Mt i th Hi) as Hok; unfold thread_ok in Hok; rewrite Ep in Hok.
  - destruct (with_mutex _ _ _ _ _ _) as [r2 th2] eqn:Ew. destruct (set_nth ths i th2) as [ths2|] eqn:Es; [|discriminate]. cbn [obind] in E. injection E as <- <-.
    eapply mid_mutex; [|exact Ew|exact Es]. split; cbn [report next trace totals num_ended last_to_end]; try assumption.
    + eauto.
    + rewrite begun_app. cbn. now rewrite app_nil_r.
    + exists []. rewrite of_thread_app, of_thread_one, Hok. cbn [event_thread]. rewrite Nat.eqb_refl. split; [reflexivity|]. split; [constructor|reflexivity].
    + intros t th3 E3 Ne. specialize (Mt t th3 E3). unfold thread_ok, ending in *. cbn [report next trace last_to_end]. rewrite of_thread_app, of_thread_one. cbn [event_thread].
      destruct (Nat.eqb_spec i t); [congruence|]. rewrite app_nil_r. exact Mt.
    + intros ev Hv. apply in_app_iff in Hv. destruct Hv as [Hv|[<-|[]]]; [auto|exact Hin].
    + intros P HP. rewrite ended_by_app. cbn [ended_by flat_map app]. rewrite app_nil_r. apply Mp. exact HP.
  - destruct (with_mutex _ _ _ _ _ _) as [r2 th2] eqn:Ew. destruct (set_nth ths i th2) as [ths2|] eqn:Es; [|discriminate]. cbn [obind] in E. injection E as <- <-.
    destruct Hok as (l & Hl & Ho & Hc). eapply mid_mutex; [|exact Ew|exact Es]. split; cbn [report next trace totals num_ended last_to_end]; try assumption.
    + eauto.
    + rewrite begun_app. cbn. now rewrite app_nil_r.
    + exists (l ++ [Begin i e; End i e]). rewrite of_thread_app, of_thread_one, Hl. cbn [event_thread]. rewrite Nat.eqb_refl. split; [cbn; now rewrite <- app_assoc|]. split; [now apply oaat_snoc|].
      rewrite begun_app. cbn [begun flat_map app]. rewrite expected_snoc. now f_equal.
    + intros t th3 E3 Ne. specialize (Mt t th3 E3). unfold thread_ok, ending in *. cbn [report next trace last_to_end]. rewrite of_thread_app, of_thread_one. cbn [event_thread].
      destruct (Nat.eqb_spec i t); [congruence|]. rewrite app_nil_r. exact Mt.
    + intros ev Hv. apply in_app_iff in Hv. destruct Hv as [Hv|[<-|[]]]; [auto|exact Hin].
    + intros P HP. rewrite ended_by_app. cbn [ended_by flat_map app]. assert (Pi : P i = false).
      { destruct (P i) eqn:X; [|reflexivity]. apply HP in X. destruct X as (th3 & A & B & _). congruence. }
      rewrite Pi, app_nil_r. apply Mp. exact HP.
Qed.

Lemma inv_steps schedule : forall r ths r' ths', inv r ths -> steps res concur nonconcur n (r, ths) schedule = Some (r', ths') -> inv r' ths'.
Proof.
  induction schedule as [|i s IH]; intros r ths r' ths' H E; cbn [steps] in E; [congruence|].
  destruct (step _ _ _ _ _ _) as [[r2 ths2]|] eqn:Es; [|discriminate]. cbn [obind] in E. eapply IH; [|exact E]. eapply inv_step; eassumption.
Qed.

(* the number of steps that are left *)
Definition measure (r : root) (ths : list thread) : nat := (length ths - num_returned ths) + (length concur - next r).

Lemma step_measure r ths i r' ths' : inv r ths -> step res concur nonconcur n (r, ths) i = Some (r', ths') -> measure r ths = S (measure r' ths').
Proof.
  intros H E. pose proof (inv_next _ _ H) as Hn. clear H. unfold measure.
  cbn [step] in E. destruct (nth_error ths i) as [th|] eqn:Hi; [|discriminate].
  assert (W : forall r0 c, next r0 = next r -> is_returned th = false -> (let (r, th) := with_mutex concur nonconcur n r0 i c in let? ths := set_nth ths i th in Some (r, ths)) = Some (r', ths') ->
    length ths - num_returned ths + (length concur - next r) = S (length ths' - num_returned ths' + (length concur - next r'))).
  { clear E. intros r0 c E0 Hr E. destruct (with_mutex _ _ _ _ _ _) as [r2 th2] eqn:Ew. destruct (set_nth ths i th2) as [ths2|] eqn:Es; [|discriminate]. cbn [obind] in E. injection E as <- <-.
    pose proof (num_returned_set _ _ _ _ _ Hi Hr Es) as Hc. pose proof (set_nth_length _ _ _ _ Es) as Hl. pose proof (num_returned_lt _ _ _ Hi Hr) as Hlt.
    unfold with_mutex in Ew. rewrite E0 in Ew. destruct (nth_error concur (next r)) eqn:En.
    - injection Ew as <- <-. cbn in *. assert (next r < length concur) by (apply nth_error_Some; congruence). lia.
    - apply nth_error_None in En. destruct (match nonconcur with [] => false | _ => _ end); injection Ew as <- <-; cbn in *; lia. }
  destruct (th_place th) as [|e|] eqn:Ep; [| |discriminate]; (eapply W; [|unfold is_returned; now rewrite Ep|exact E]; reflexivity).
Qed.

Lemma steps_measure schedule : forall r ths r' ths', inv r ths -> steps res concur nonconcur n (r, ths) schedule = Some (r', ths') ->
  measure r ths = length schedule + measure r' ths'.
Proof.
  induction schedule as [|i s IH]; intros r ths r' ths' H E; cbn [steps] in E; [injection E as -> ->; reflexivity|].
  destruct (step _ _ _ _ _ _) as [[r2 ths2]|] eqn:Es; [|discriminate]. cbn [obind] in E. rewrite (step_measure _ _ _ _ _ H Es). cbn [length].
  rewrite (IH r2 ths2 r' ths'); [lia| |exact E]. eapply inv_step; eassumption.
Qed.

(* a thread that has not returned can take the mutex *)
Lemma can_step r ths i th : nth_error ths i = Some th -> th_place th <> Returned -> exists st, step res concur nonconcur n (r, ths) i = Some st.
Proof.
  intros Hi Hp. cbn [step]. rewrite Hi. assert (Hlt : i < length ths) by (apply nth_error_Some; congruence).
  destruct (th_place th) as [|e|]; [| |congruence]; destruct (with_mutex _ _ _ _ _ _) as [r2 th2]; rewrite set_nth_some by assumption; cbn [obind]; eauto.
Qed.

Lemma not_all_returned ths : all_returned ths = false -> exists i th, nth_error ths i = Some th /\ th_place th <> Returned.
Proof.
  induction ths as [|th ths IH]; cbn; [discriminate|]. destruct (th_place th) eqn:E.
  - intros _. exists 0, th. split; [reflexivity|congruence].
  - intros _. exists 0, th. split; [reflexivity|congruence].
  - cbn. intros H. destruct (IH H) as (i & th2 & A & B). exists (S i), th2. auto.
Qed.

(* when all threads have returned *)
Lemma all_done r ths : inv r ths -> all_returned ths = true -> (n = 0 -> concur = []) ->
  begun (trace r) = concur /\ Permutation (ended (trace r)) concur /\ all_over (trace r) /\
  (forall t, t < n -> exists l, of_thread t (trace r) = ThreadBegin t :: l ++ ending r t /\ one_at_a_time t l) /\
  (forall ev, In ev (trace r) -> event_thread ev < n) /\
  match last_to_end r with
  | Some i => i < n /\ nonconcur <> [] /\ totals r = expected_counters res (ended_by (fun t => negb (Nat.eqb t i)) (trace r))
  | None => (nonconcur = [] \/ n = 0) /\ totals r = expected_counters res (ended (trace r))
  end.
Proof.
  intros [Ml Mn Mb Mt Mo Ma Mp] Hall Hz. rewrite all_returned_spec in Hall.
  assert (Hth : forall t, t < n -> exists th, nth_error ths t = Some th).
  { intros t Ht. destruct (nth_error ths t) eqn:E; [eauto|]. apply nth_error_None in E. lia. }
  assert (Hrep : forall t, t < n -> next r = length concur /\ exists l, of_thread t (trace r) = ThreadBegin t :: l ++ ending r t /\ one_at_a_time t l).
  { intros t Ht. destruct (Hth t Ht) as (th & E). pose proof (Mt t th E) as H. unfold thread_ok in H. rewrite (Hall t th E) in H. exact H. }
  assert (Hb : begun (trace r) = concur).
  { rewrite Mb. destruct n as [|m]; [rewrite Hz by reflexivity; now destruct (next r)|]. destruct (Hrep 0 ltac:(lia)) as (-> & _). apply firstn_all. }
  assert (Hov : all_over (trace r)).
  { intros t e Hin. assert (Ht : t < n) by (apply (Mo _ Hin)). destruct (Hrep t Ht) as (_ & l & Hl & Ho).
    assert (X : In (Begin t e) (of_thread t (trace r))) by (apply of_thread_in; auto). rewrite Hl in X. destruct X as [X|X]; [discriminate|].
    apply in_app_iff in X. destruct X as [X|X].
    - apply (oaat_over t l Ho) in X. assert (Y : In (End t e) (of_thread t (trace r))) by (rewrite Hl; right; apply in_app_iff; auto). now apply of_thread_in in Y.
    - exfalso. unfold ending in X. destruct (last_to_end r); [destruct (Nat.eqb _ _)|]; cbn in X; intuition discriminate. }
  assert (Hp : Permutation (ended (trace r)) (begun (trace r))).
  { apply (over_perm n); [assumption|]. intros t Ht. destruct (Hrep t Ht) as (_ & l & Hl & Ho). rewrite Hl. cbn [ended begun flat_map app].
    fold (ended (l ++ ending r t)). fold (begun (l ++ ending r t)). rewrite ended_app, begun_app, (oaat_ended _ _ Ho). f_equal.
    unfold ending. destruct (last_to_end r); [destruct (Nat.eqb _ _)|]; reflexivity. }
  split; [assumption|]. split; [now rewrite Hb in Hp|]. split; [assumption|]. split; [intros t Ht; apply Hrep; assumption|]. split; [assumption|].
  destruct (last_to_end r) as [i|] eqn:El.
  - destruct Ma as (Hi & Hne & _). split; [assumption|]. split; [assumption|].
    rewrite (Mp (fun t => Nat.ltb t n && negb (Nat.eqb t i))).
    + f_equal. apply ended_by_ext. intros ev Hv. specialize (Mo ev Hv). now apply Nat.ltb_lt in Mo; rewrite Mo.
    + intros t. rewrite andb_true_iff, Nat.ltb_lt, negb_true_iff, Nat.eqb_neq. unfold finalized. rewrite El. split.
      * intros (Ht & Ne). destruct (Hth t Ht) as (th & E). exists th. split; [assumption|]. split; [eapply Hall; eassumption|congruence].
      * intros (th & E & _ & Ne). split; [rewrite <- Ml; apply nth_error_Some; congruence|congruence].
  - destruct Ma as (He & Hlt). split.
    + destruct nonconcur as [|x N]; [now left|]. right. destruct n as [|m] eqn:En; [reflexivity|]. exfalso.
      assert (X : num_returned ths = length ths).
      { unfold num_returned. clear - Hall. induction ths as [|th ths IH]; [reflexivity|]. cbn. unfold is_returned at 1. rewrite (Hall 0 th eq_refl). cbn. f_equal. apply IH.
        intros t th2 E. apply (Hall (S t)). exact E. }
      specialize (Hlt ltac:(discriminate) ltac:(lia)). lia.
    + rewrite (Mp (fun t => Nat.ltb t n)).
      * f_equal. rewrite <- (ended_by_all (fun _ => true)) by reflexivity. apply ended_by_ext. intros ev Hv. specialize (Mo ev Hv). now apply Nat.ltb_lt in Mo; rewrite Mo.
      * intros t. rewrite Nat.ltb_lt. unfold finalized. rewrite El. split.
        -- intros Ht. destruct (Hth t Ht) as (th & E). exists th. split; [assumption|]. split; [eapply Hall; eassumption|discriminate].
        -- intros (th & E & _). rewrite <- Ml. apply nth_error_Some. congruence.
Qed.

(* the nonconcurrent tests *)
Lemma nonconcur_run_ok r i :
  let r' := nonconcur_run res nonconcur r i in
  trace r' = trace r ++ flat_map (fun e => [Begin i e; End i e]) nonconcur ++ [ThreadEnd i] /\ totals r' = add_counters (totals r) (expected_counters res nonconcur).
Proof.
  cbn. assert (H : forall N tr c, fold_left (fun a e => (fst a ++ [Begin i e; End i e], count_result (snd a) (res e))) N (tr, c) =
    (tr ++ flat_map (fun e => [Begin i e; End i e]) N, add_counters c (expected_counters res N))).
  { induction N as [|e N IH]; intros tr c; cbn [fold_left flat_map fst snd]; [now rewrite app_nil_r, add_cleared|].
    rewrite IH, <- app_assoc. f_equal. change (e :: N) with ([e] ++ N). rewrite expected_app, expected_one. unfold add_counters, count_result, cleared. cbn. f_equal; lia. }
  unfold nonconcur_run. rewrite H. cbn [trace totals]. rewrite cleared_add, <- app_assoc. auto.
Qed.
End Inv.
