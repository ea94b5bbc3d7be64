(* Construction of the DFA: the states are the sets of positions reached by the sequences of
   symbols. *)
From Coq Require Import List Arith Bool Lia Sorted.
From Verif Require Import CliPatternModel CliPatternSpec CliBuilderProofs CliNfaProofs CliMatcherModel CliMatcherSpec CliReachProofs ArrLib.
Import ListNotations.

(* ---- maps from symbols ---- *)

Definition pslt (a b : psym) : Prop := psym_ltb a b = true.

Lemma pslt_iff a b : psym_ltb a b = true <->
  sym_type_val (s_type a) < sym_type_val (s_type b) \/ (sym_type_val (s_type a) = sym_type_val (s_type b) /\ s_index a < s_index b).
Proof. unfold psym_ltb. rewrite orb_true_iff, andb_true_iff, !Nat.ltb_lt, Nat.eqb_eq. reflexivity. Qed.

Lemma psym_ext a b : sym_type_val (s_type a) = sym_type_val (s_type b) -> s_index a = s_index b -> a = b.
Proof. destruct a as [[] i], b as [[] j]; cbn; intros H1 H2; try discriminate; congruence. Qed.

Lemma psym_eqb_eq a b : psym_eqb a b = true <-> a = b.
Proof.
  unfold psym_eqb. rewrite andb_true_iff, !Nat.eqb_eq. split; [intros [H1 H2]; now apply psym_ext|intros ->; auto].
Qed.

Lemma pslt_irrefl a : ~ pslt a a.
Proof. unfold pslt. rewrite pslt_iff. lia. Qed.
Lemma pslt_trans a b c : pslt a b -> pslt b c -> pslt a c.
Proof. unfold pslt. rewrite !pslt_iff. lia. Qed.
Lemma psym_cases a b : {pslt a b} + {a = b} + {pslt b a}.
Proof.
  unfold pslt. destruct (psym_ltb a b) eqn:E1; [auto|]. destruct (psym_ltb b a) eqn:E2; [auto|]. left; right.
  assert (~ psym_ltb a b = true) by congruence. assert (~ psym_ltb b a = true) by congruence.
  rewrite pslt_iff in *. apply psym_ext; lia.
Qed.
Lemma pslt_asym a b : pslt a b -> psym_ltb b a = false.
Proof. intros H. destruct (psym_ltb b a) eqn:E; [|reflexivity]. exfalso. apply (pslt_irrefl a). now apply pslt_trans with b. Qed.
Lemma pslt_refl_false a : psym_ltb a a = false.
Proof. destruct (psym_ltb a a) eqn:E; [|reflexivity]. now apply pslt_irrefl in E. Qed.

Section Maps.
  Context {A : Type}.
  Definition sorted (m : list (psym * A)) : Prop := StronglySorted pslt (map fst m).

  Lemma map_find_in s a m : sorted m -> (map_find s m = Some a <-> In (s, a) m).
  Proof.
    unfold sorted. induction m as [|[s2 a2] m IH]; cbn [map map_find fst In]; intros Hs; [intuition discriminate|].
    inversion Hs as [|x l Hs' Hf]; subst. rewrite Forall_forall in Hf. specialize (IH Hs').
    assert (G : forall b, In (s, b) m -> pslt s2 s) by (intros b Hb; apply Hf; apply in_map_iff; exists (s, b); auto).
    destruct (psym_cases s s2) as [[H|H]|H].
    - unfold pslt in H. rewrite H. split; [discriminate|]. intros [E|Hi].
      + injection E as -> ->. now apply pslt_irrefl in H.
      + exfalso. apply (pslt_irrefl s). apply pslt_trans with s2; [exact H|]. now apply G with a.
    - subst s2. rewrite !pslt_refl_false. split; [intros [= ->]; auto|]. intros [E|Hi]; [congruence|].
      now apply G, pslt_irrefl in Hi.
    - rewrite (pslt_asym _ _ H). unfold pslt in H. rewrite H, IH. split; [auto|]. intros [E|Hi]; [|exact Hi].
      injection E as -> ->. now apply pslt_irrefl in H.
  Qed.

  Lemma map_put_keys s (a : A) m x : In x (map fst (map_put s a m)) <-> x = s \/ In x (map fst m).
  Proof.
    induction m as [|[s2 a2] m IH]; cbn [map_put map fst In]; [intuition|].
    destruct (psym_ltb s s2) eqn:E1; cbn [map fst In]; [intuition|]. destruct (psym_ltb s2 s) eqn:E2; cbn [map fst In].
    - rewrite IH. intuition.
    - assert (s = s2). { destruct (psym_cases s s2) as [[H|H]|H]; unfold pslt in H; congruence. } subst. intuition.
  Qed.

  Lemma map_put_sorted s (a : A) m : sorted m -> sorted (map_put s a m).
  Proof.
    unfold sorted. induction m as [|[s2 a2] m IH]; cbn [map_put map fst]; intros Hs; [repeat constructor|].
    inversion Hs as [|x l Hs' Hf]; subst. rewrite Forall_forall in Hf.
    destruct (psym_ltb s s2) eqn:E1; cbn [map fst].
    - constructor; [exact Hs|]. apply Forall_forall. intros x [<-|Hx]; [exact E1|]. apply pslt_trans with s2; [exact E1|now apply Hf].
    - destruct (psym_ltb s2 s) eqn:E2; cbn [map fst].
      + constructor; [now apply IH|]. apply Forall_forall. intros x Hx. apply map_put_keys in Hx as [->|Hx]; [exact E2|now apply Hf].
      + assert (s = s2). { destruct (psym_cases s s2) as [[H|H]|H]; unfold pslt in H; congruence. } subst. constructor; [exact Hs'|].
        now apply Forall_forall.
  Qed.

  Lemma map_find_put_same s (a : A) m : sorted m -> map_find s (map_put s a m) = Some a.
  Proof.
    intros Hs. apply map_find_in; [now apply map_put_sorted|]. clear Hs.
    induction m as [|[s2 a2] m IH]; cbn [map_put]; [now left|].
    destruct (psym_ltb s s2); [now left|]. destruct (psym_ltb s2 s); [now right|now left].
  Qed.

  Lemma map_find_put_other s (a : A) m x : sorted m -> x <> s -> map_find x (map_put s a m) = map_find x m.
  Proof.
    unfold sorted. intros Hs Hx. induction m as [|[s2 a2] m IH]; cbn [map_put map_find].
    - destruct (psym_cases x s) as [[H|H]|H]; [|contradiction|]; unfold pslt in H.
      + now rewrite H.
      + rewrite (pslt_asym _ _ H), H. reflexivity.
    - cbn [map fst] in Hs. inversion Hs as [|y l Hs' Hf]; subst. specialize (IH Hs'). destruct (psym_ltb s s2) eqn:E1; cbn [map_find].
      + destruct (psym_cases x s) as [[H|H]|H]; [|contradiction|].
        * pose proof (pslt_trans _ _ _ H E1) as H2. unfold pslt in H, H2. now rewrite H, H2.
        * rewrite (pslt_asym _ _ H). unfold pslt in H. now rewrite H.
      + destruct (psym_ltb s2 s) eqn:E2; cbn [map_find].
        * now rewrite IH.
        * assert (s = s2). { destruct (psym_cases s s2) as [[H|H]|H]; unfold pslt in H; congruence. } subst s2.
          destruct (psym_cases x s) as [[H|H]|H]; [|contradiction|]; unfold pslt in H.
          -- now rewrite H.
          -- rewrite (pslt_asym _ _ H), H. reflexivity.
  Qed.
End Maps.

(* ---- lists ---- *)

Lemma list_eqb_eq a : forall b, list_eqb a b = true <-> a = b.
Proof.
  induction a as [|x a IH]; intros [|y b]; cbn [list_eqb]; try (intuition discriminate).
  rewrite andb_true_iff, Nat.eqb_eq, IH. split; [intros [-> ->]; reflexivity|intros [= -> ->]; auto].
Qed.

Lemma mem_in x l : mem x l = true <-> In x l.
Proof.
  unfold mem. rewrite existsb_exists. split; [intros (y & H & E); apply Nat.eqb_eq in E; now subst|].
  intros H. exists x. split; [exact H|apply Nat.eqb_refl].
Qed.

Lemma frozen_new l s : frozen (l ++ s) (length l, length (l ++ s)) = s.
Proof.
  unfold frozen. cbn [fst snd]. rewrite app_length, skipn_app, skipn_all, Nat.sub_diag. cbn [app skipn].
  replace (length l + length s - length l) with (length s) by lia. apply firstn_all.
Qed.

Lemma frozen_old l s r : snd r <= length l -> frozen (l ++ s) r = frozen l r.
Proof.
  intros H. unfold frozen. rewrite skipn_app, firstn_app, skipn_length.
  replace (snd r - fst r - (length l - fst r)) with 0 by lia. cbn [firstn]. apply app_nil_r.
Qed.

(* a set is determined by its elements *)
Lemma incr_ext a : forall b, incr a -> incr b -> (forall x, In x a <-> In x b) -> a = b.
Proof.
  unfold incr. induction a as [|x a IH]; intros [|y b] Ha Hb H.
  - reflexivity.
  - exfalso. apply (H y). now left.
  - exfalso. apply (H x). now left.
  - inversion Ha as [|? ? Ha' Fa]; subst. inversion Hb as [|? ? Hb' Fb]; subst. rewrite Forall_forall in Fa, Fb.
    assert (x = y).
    { destruct (proj1 (H x) (or_introl eq_refl)) as [E|E]; [now symmetry|]. destruct (proj2 (H y) (or_introl eq_refl)) as [E'|E']; [exact E'|].
      apply Fb in E. apply Fa in E'. lia. }
    subst y. f_equal. apply IH; try assumption. intros z. split; intros Hz.
    + destruct (proj1 (H z) (or_intror Hz)) as [E|E]; [|exact E]. apply Fa in Hz. lia.
    + destruct (proj2 (H z) (or_intror Hz)) as [E|E]; [|exact E]. apply Fb in Hz. lia.
Qed.

(* the increasing lists of numbers below a bound *)
Fixpoint subsets (k : nat) : list (list nat) :=
  match k with O => [[]] | S k => subsets k ++ map (fun l => l ++ [k]) (subsets k) end.

Lemma subsets_length k : length (subsets k) = 2 ^ k.
Proof. induction k as [|k IH]; cbn [subsets]; [reflexivity|]. rewrite app_length, map_length, IH. cbn [Nat.pow]. lia. Qed.

Lemma incr_app_inv a b : incr (a ++ [b]) -> incr a /\ forall x, In x a -> x < b.
Proof.
  unfold incr. induction a as [|y a IH]; cbn [app]; intros H; [split; [constructor|intros x []]|].
  inversion H as [|? ? H' F]; subst. destruct (IH H') as [I1 I2]. rewrite Forall_forall in F. split.
  - constructor; [exact I1|]. apply Forall_forall. intros x Hx. apply F. apply in_or_app. now left.
  - intros x [<-|Hx]; [apply F; apply in_or_app; right; now left|now apply I2].
Qed.

Lemma subsets_all k : forall l, incr l -> (forall x, In x l -> x < k) -> In l (subsets k).
Proof.
  induction k as [|k IH]; intros l Hl Hk; cbn [subsets].
  - destruct l as [|x l]; [now left|]. specialize (Hk x (or_introl eq_refl)). lia.
  - apply in_or_app. destruct (list_eq_dec Nat.eq_dec l []) as [->|Hne].
    + left. apply IH; [exact Hl|]. intros x [].
    + destruct (exists_last Hne) as (l' & y & ->). apply incr_app_inv in Hl as [H1 H2].
      assert (y < S k) by (apply Hk; apply in_or_app; right; now left).
      destruct (Nat.eq_dec y k) as [->|Hy].
      * right. apply in_map_iff. exists l'. split; [reflexivity|]. apply IH; assumption.
      * left. apply IH.
        -- clear - H1 H2. unfold incr in *. induction l' as [|z l' IH]; cbn [app]; [repeat constructor|].
           inversion H1; subst. constructor; [apply IH; [assumption|intros x Hx; apply H2; now right]|].
           rewrite Forall_forall in *. intros x Hx. apply in_app_iff in Hx as [Hx|[<-|[]]]; [auto|]. apply H2. now left.
        -- intros x Hx. apply in_app_iff in Hx as [Hx|[<-|[]]]; [apply H2 in Hx; lia|lia].
Qed.
