(* Lemmas about the taking over of arguments. *)
From Coq Require Import List Arith Lia Bool ZArith.
From Verif Require Import CliSpecModel CliProcessorModel CliRootModel CliRootSpec ArrLib.
Import ListNotations.

Ltac tlia := unfold text in *; lia.

(* where the texts end, one after the other *)
Fixpoint ends_of (begin : nat) (ts : list text) : list nat :=
  match ts with
  | [] => []
  | t :: ts => (begin + length t) :: ends_of (begin + length t) ts
  end.

Lemma ends_of_app ts x : forall begin, ends_of begin (ts ++ [x]) = ends_of begin ts ++ [begin + length (concat (ts ++ [x]))].
Proof. induction ts as [|t ts IH]; intros begin; cbn; [now rewrite app_nil_r|]. rewrite IH. cbn. do 3 f_equal. rewrite app_length. lia. Qed.
Lemma ends_of_length ts : forall begin, length (ends_of begin ts) = length ts.
Proof. induction ts; intros begin; cbn; [reflexivity|now rewrite IHts]. Qed.

Lemma views_exact argv held capacity i s ts : nth_error held i = Some s ->
  forall pre args, s = pre ++ concat ts -> length args + length ts <= capacity ->
  exists xs, flush_views capacity (Held i) (length s) (length pre) (ends_of (length pre) ts) args = Some (args ++ xs) /\
    Forall2 (shows argv held) xs ts /\ Forall is_held xs.
Proof.
  intros Es. induction ts as [|t ts IH]; intros pre args E Hc; cbn; [exists []; rewrite app_nil_r; now repeat split|].
  cbn in E, Hc. replace (length pre <=? length pre + length t) with true by (symmetry; apply Nat.leb_le; lia).
  unfold substr. assert (L : length s = length pre + (length t + length (concat ts))) by (rewrite E, !app_length; reflexivity).
  replace (length pre <=? length s) with true by (symmetry; apply Nat.leb_le; lia). cbn.
  unfold slab_add. replace (length args <? capacity) with true by (symmetry; apply Nat.ltb_lt; lia). cbn.
  replace (length pre + length t) with (length (pre ++ t)) by now rewrite app_length.
  destruct (IH (pre ++ t) (args ++ [View (Held i) (length pre) (min (length (pre ++ t) - length pre) (length s - length pre))])) as (xs & A & B & C).
  - now rewrite E, <- app_assoc.
  - rewrite app_length. cbn. lia.
  - exists (View (Held i) (length pre) (min (length (pre ++ t) - length pre) (length s - length pre)) :: xs). rewrite A, <- app_assoc. split; [reflexivity|]. split.
    + constructor; [|exact B]. exists s, pre, (concat ts). split; [exact Es|]. split; [exact E|]. split; [reflexivity|]. cbn. rewrite app_length. lia.
    + constructor; [now exists i|exact C].
Qed.

Lemma shows_more argv held more x t : shows argv held x t -> shows argv (held ++ more) x t.
Proof.
  intros (s & a & b & N & R). exists s, a, b. split; [|exact R]. destruct (vw_owner x); [exact N|]. rewrite nth_error_app1; [exact N|]. apply nth_error_Some. congruence.
Qed.

(* the state when done has been taken over, and pend is in the buffer *)
Definition at_state (argv old : list text) (r : rstate) (done pend : list text) : Prop :=
  r_buffer r = concat pend /\ r_ends r = ends_of 0 pend /\ Forall2 (shows argv (r_holder r)) (r_args r) done /\ Forall is_held (r_args r) /\
  (exists more, r_holder r = old ++ more) /\ even done.

Lemma F2_length {A B} (R : A -> B -> Prop) l m : Forall2 R l m -> length l = length m.
Proof. induction 1; cbn; congruence. Qed.

Lemma flush_exact argv old capacity r done pend : at_state argv old r done pend -> concat pend <> [] -> length (done ++ pend) <= capacity ->
  exists r', flush capacity r = Some r' /\ r_buffer r' = [] /\ r_ends r' = [] /\ Forall2 (shows argv (r_holder r')) (r_args r') (done ++ pend) /\ Forall is_held (r_args r') /\
    exists more, r_holder r' = old ++ more.
Proof.
  intros (Bf & En & Sh & Hd & (more & Mo) & Ev) Ne Hc. unfold flush. rewrite Bf. destruct (length (concat pend) =? 0) eqn:Z; [apply Nat.eqb_eq in Z; destruct (concat pend); [contradiction|discriminate]|].
  rewrite app_length in Hc. pose proof (F2_length _ _ _ Sh) as L.
  destruct (views_exact argv (r_holder r ++ [concat pend]) capacity (length (r_holder r)) (concat pend) pend) with (pre := @nil nat) (args := r_args r) as (xs & A & B & C).
  - rewrite nth_error_app2, Nat.sub_diag; [reflexivity|lia].
  - reflexivity.
  - rewrite L. exact Hc.
  - cbn [length] in A. rewrite En, A. cbn. eexists. split; [reflexivity|]. cbn. split; [reflexivity|]. split; [reflexivity|]. split; [|split; [now apply Forall_app|]].
    + apply Forall2_app; [|exact B]. clear - Sh. induction Sh; constructor; [now apply shows_more|assumption].
    + exists (more ++ [concat pend]). now rewrite Mo, app_assoc.
Qed.

Lemma add_exact decode argv0 old capacity argv : forall r done pend, at_state argv0 old r done pend -> (Z.of_nat (length (concat pend)) <= 8192)%Z ->
  length done + length pend + length argv <= capacity ->
  match add_args decode capacity argv r with
  | Taken r' => exists ts done' pend', Forall2 (fun a t => decode a = Some t) argv ts /\ at_state argv0 old r' done' pend' /\
      done ++ pend ++ ts = done' ++ pend' /\ (Z.of_nat (length (concat pend')) <= 8192)%Z
  | CodecError => exists a, In a argv /\ decode a = None
  | _ => False
  end.
Proof.
  induction argv as [|a argv IH]; intros r done pend At Hp Hc; cbn.
  - exists [], done, pend. split; [constructor|]. split; [exact At|]. split; [now rewrite app_nil_r|exact Hp].
  - destruct (decode a) as [x|] eqn:Ed; [|exists a; split; [now left|exact Ed]]. cbn in Hc.
    pose proof At as (Bf & En & Sh & Hd & Mo & Ev).
    assert (Cx : r_buffer r ++ x = concat (pend ++ [x])) by (rewrite Bf, concat_app; cbn; now rewrite app_nil_r).
    assert (At' : at_state argv0 old (Rstate (r_holder r) (r_buffer r ++ x) (r_ends r ++ [length (r_buffer r ++ x)]) (r_args r)) done (pend ++ [x])).
    { split; [exact Cx|]. split; [|now repeat split]. cbn. rewrite ends_of_app, En, Cx. reflexivity. }
    destruct (soft_limit <? Z.of_nat (length (r_buffer r ++ x)))%Z eqn:El; [apply Z.ltb_lt in El|apply Z.ltb_ge in El]; unfold soft_limit in El; rewrite Cx in El.
    + destruct (flush_exact _ _ capacity _ _ _ At') as (r' & F & B' & E' & S' & H' & M').
      * intros E. rewrite E in El. cbn in El. tlia.
      * rewrite !app_length. cbn. tlia.
      * rewrite F. specialize (IH r' (done ++ pend ++ [x]) []).
        assert (X : even (done ++ pend ++ [x])) by (constructor; [exact Ev|tlia]).
        specialize (IH (conj B' (conj E' (conj S' (conj H' (conj M' X))))) ltac:(cbn; tlia) ltac:(rewrite !app_length; cbn; tlia)).
        destruct (add_args decode capacity argv r') as [r''| | |]; [|contradiction| |contradiction].
        -- destruct IH as (ts & d' & p' & F2 & A' & E2 & L). exists (x :: ts), d', p'. split; [now constructor|]. split; [exact A'|]. split; [|exact L]. rewrite <- E2. cbn. now rewrite <- !app_assoc.
        -- destruct IH as (b & Hb & Eb). exists b. split; [now right|exact Eb].
    + specialize (IH _ _ _ At' El ltac:(rewrite !app_length; cbn; tlia)).
      destruct (add_args decode capacity argv _) as [r''| | |]; [|contradiction| |contradiction].
      * destruct IH as (ts & d' & p' & F2 & A' & E2 & L). exists (x :: ts), d', p'. split; [now constructor|]. split; [exact A'|]. split; [|exact L]. rewrite <- E2. now rewrite <- !app_assoc.
      * destruct IH as (b & Hb & Eb). exists b. split; [now right|exact Eb].
Qed.

Lemma refer_exact argv held capacity : forall suf pre args, argv = pre ++ suf -> Forall2 (shows argv held) args pre -> length pre + length suf <= capacity ->
  exists args', refer_args capacity (length pre) suf args = Some args' /\ Forall2 (shows argv held) args' argv.
Proof.
  induction suf as [|a suf IH]; intros pre args E Sh Hc; cbn; [exists args; split; [reflexivity|]; rewrite E, app_nil_r; now rewrite E, app_nil_r in Sh|].
  cbn in Hc. unfold slab_add. pose proof (F2_length _ _ _ Sh) as L. replace (length args <? capacity) with true by (symmetry; apply Nat.ltb_lt; tlia). cbn.
  replace (S (length pre)) with (length (pre ++ [a])) by (rewrite app_length; cbn; tlia). apply IH; [now rewrite <- app_assoc| |rewrite app_length; cbn; tlia].
  apply Forall2_app; [exact Sh|]. constructor; [|constructor]. exists a, [], []. cbn. rewrite app_nil_r. repeat split.
  rewrite E, nth_error_app2, Nat.sub_diag; [reflexivity|tlia].
Qed.

(* the last group is not one that is full *)
Lemma concat_nil (ts : list text) : concat ts = [] -> ts = repeat [] (length ts).
Proof. induction ts as [|t ts IH]; cbn; [reflexivity|]. intros E. apply app_eq_nil in E as [-> E]. now rewrite <- IH. Qed.
Lemma concat_repeat n : concat (repeat (@nil nat) n) = [].
Proof. induction n; cbn; auto. Qed.

(* what is full is determined by the arguments *)
Fixpoint after_full (c ts : list (list nat)) : list (list nat) :=
  match ts with
  | [] => c
  | x :: ts => if (8192 <? Z.of_nat (length (concat (c ++ [x]))))%Z then after_full [] ts else after_full (c ++ [x]) ts
  end.
Lemma after_part c2 : forall c ts, (Z.of_nat (length (concat (c ++ c2))) <= 8192)%Z -> after_full c (c2 ++ ts) = after_full (c ++ c2) ts.
Proof.
  induction c2 as [|x c2 IH]; intros c ts H; cbn; [now rewrite app_nil_r|].
  destruct (8192 <? Z.of_nat (length (concat (c ++ [x]))))%Z eqn:E; [exfalso; apply Z.ltb_lt in E; revert E H; rewrite !concat_app, !app_length; cbn; rewrite !app_length; cbn; tlia|].
  assert (A : (c ++ [x]) ++ c2 = c ++ x :: c2) by now rewrite <- app_assoc. rewrite <- A. apply IH. rewrite A. exact H.
Qed.
Lemma after_group c x : forall ts, (Z.of_nat (length (concat c)) <= 8192 < Z.of_nat (length (concat (c ++ [x]))))%Z -> after_full [] (c ++ x :: ts) = after_full [] ts.
Proof. intros ts H. rewrite after_part by apply H. cbn [app after_full]. destruct (8192 <? _)%Z eqn:E; [reflexivity|]. apply Z.ltb_ge in E. tlia. Qed.
Lemma after_even pre : even pre -> forall ts, after_full [] (pre ++ ts) = after_full [] ts.
Proof. induction 1 as [|pre c x E IH H]; intros ts; [reflexivity|]. rewrite <- !app_assoc, IH. cbn. now apply after_group. Qed.
Lemma after_rest c : (Z.of_nat (length (concat c)) <= 8192)%Z -> after_full [] c = c.
Proof. intros H. rewrite <- (app_nil_r c) at 1. now rewrite after_part. Qed.

Lemma trailing_iff done pend : even done -> (Z.of_nat (length (concat pend)) <= 8192)%Z ->
  (trailing_empty (done ++ pend) <-> pend <> [] /\ concat pend = []).
Proof.
  intros Ev Hp. split.
  - intros (pre & n & Ep & E). apply (f_equal (after_full [])) in E. rewrite !after_even, !after_rest in E by (rewrite ?concat_repeat; cbn; auto; tlia). subst pend. split; [discriminate|apply concat_repeat].
  - intros [Ne Nil]. destruct pend as [|p pend]; [contradiction|]. exists done, (length pend). split; [exact Ev|]. f_equal. now apply concat_nil in Nil.
Qed.
