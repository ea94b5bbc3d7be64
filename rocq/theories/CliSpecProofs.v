(* The entry of references in a specification. *)
From Coq Require Import List Arith Bool ZArith Lia.
From Verif Require Import CliPatternModel CliPatternSpec CliSpecModel CliRecorderModel CliRecorderSpec ArrLib.
Import ListNotations.

Lemma text_eqb_eq a b : text_eqb a b = true <-> a = b.
Proof.
  revert b. induction a as [|x a IH]; intros [|y b]; cbn [text_eqb]; split; intros H; try easy.
  - apply andb_true_iff in H as [H1 H2]. apply Nat.eqb_eq in H1. apply IH in H2. now subst.
  - injection H as <- <-. apply andb_true_iff. split; [apply Nat.eqb_refl|now apply IH].
Qed.

Section Map.
  Variable K : Type.
  Variable eqb : K -> K -> bool.
  Hypothesis eqb_eq : forall a b, eqb a b = true <-> a = b.

  Lemma mfind_app k i m k2 : mfind eqb k2 (m ++ [(k, i)]) = match mfind eqb k2 m with Some j => Some j | None => if eqb k2 k then Some i else None end.
  Proof.
    induction m as [|[k3 j] m IH]; cbn [app mfind]; [reflexivity|]. destruct (eqb k2 k3); [reflexivity|exact IH].
  Qed.

  Lemma memplace_spec k i m m' r : memplace eqb k i m = (m', r) ->
    (r = None /\ mfind eqb k m = None /\ (forall k2, mfind eqb k2 m' = match mfind eqb k2 m with Some j => Some j | None => if eqb k2 k then Some i else None end)) \/
    (exists j, r = Some j /\ mfind eqb k m = Some j /\ m' = m).
  Proof.
    unfold memplace. destruct (mfind eqb k m) as [j|] eqn:E; intros H; injection H as <- <-; [right; now exists j|].
    left. split; [reflexivity|]. split; [reflexivity|]. apply mfind_app.
  Qed.
End Map.

Lemma nat_eqb_eq a b : Nat.eqb a b = true <-> a = b. Proof. apply Nat.eqb_eq. Qed.

Lemma nth_snoc {A} (l : list A) x i : nth_error (l ++ [x]) i = if i =? length l then Some x else nth_error l i.
Proof.
  destruct (Nat.eqb_spec i (length l)) as [->|N].
  - rewrite nth_error_app2, Nat.sub_diag by lia. reflexivity.
  - destruct (Nat.lt_ge_cases i (length l)); [now rewrite nth_error_app1|].
    rewrite nth_error_app2 by lia. rewrite (proj2 (nth_error_None l i)) by lia. destruct (i - length l) as [|[|k]] eqn:E; [lia|reflexivity|reflexivity].
Qed.

(* ---- recorded ---- *)

Lemma recorded_refl p s : recorded p [] s s.
Proof.
  unfold recorded. split; [auto|]. split; [intros l []|]. split; [auto|]. split; [congruence|]. split; [congruence|].
  split; [lia|]. split; [auto|]. split; [auto|]. split; [auto|]. intros i. split; [auto|]. split; [auto|]. intros H. right. split; [exact H|]. intros l [].
Qed.

Lemma sym_in_bound s l i : spec_ok s -> sym_in s l = Some (Psym s_proto_option i) -> i < length (k_protos s).
Proof.
  intros (_ & H2 & H3 & _). destruct l as [t|t|t|t]; cbn [sym_in].
  - destruct (find_keyword s t); discriminate.
  - destruct (nth_error t 1) as [c|]; [|discriminate]. destruct (find_short s c) eqn:E; [|discriminate]. intros H. injection H as ->. now apply (H2 c).
  - destruct (find_long s (skipn 2 t)) eqn:E; [|discriminate]. intros H. injection H as ->. now apply (H3 (skipn 2 t)).
  - discriminate.
Qed.

Lemma recorded_trans p l1 l2 a b c : spec_ok b -> recorded p l1 a b -> recorded p l2 b c -> recorded p (l1 ++ l2) a c.
Proof.
  intros Ok (G & K & N & F & I & L & O1 & O2 & O3 & M) (G' & K' & N' & F' & I' & L' & O1' & O2' & O3' & M').
  unfold recorded. split; [auto|]. split.
  { intros l H. apply in_app_iff in H as [H|H]; [|auto]. specialize (K l H). destruct (sym_in b l) as [y|] eqn:E; [|easy].
    rewrite (G' l y E). discriminate. }
  split.
  { intros l y H. destruct (N' l y H) as [H1|(l' & H1 & H2)].
    - destruct (N l y H1) as [H2|(l' & H2 & H3)]; [now left|]. right. exists l'. split; [apply in_app_iff; now left|now apply G'].
    - right. exists l'. split; [apply in_app_iff; now right|exact H2]. }
  split.
  { intros l i H1 H2. destruct (sym_in b l) as [y|] eqn:E.
    - pose proof (G' l y E) as E2. rewrite H2 in E2. injection E2 as <-. now apply (F l).
    - specialize (F' l i E H2). lia. }
  split.
  { intros l l' i H1 H1' H2 H2'. destruct (sym_in b l) as [y|] eqn:E, (sym_in b l') as [y'|] eqn:E'.
    - pose proof (G' l y E) as X. pose proof (G' l' y' E') as X'. rewrite H2 in X. rewrite H2' in X'. injection X as <-. injection X' as <-.
      now apply (I l l' i).
    - pose proof (G' l y E) as X. rewrite H2 in X. injection X as <-. apply (sym_in_bound b l i Ok) in E. specialize (F' l' i E' H2'). lia.
    - pose proof (G' l' y' E') as X. rewrite H2' in X. injection X as <-. apply (sym_in_bound b l' i Ok) in E'. specialize (F' l i E H2). lia.
    - now apply (I' l l' i). }
  split; [lia|]. split; [congruence|]. split; [congruence|]. split; [congruence|].
  intros i. destruct (M i) as (Mo & Ms & Mn), (M' i) as (Mo' & Ms' & Mn'). split; [congruence|]. split.
  { intros H. rewrite Ms'; [now apply Ms|]. now rewrite Ms. }
  intros H. destruct (Mn H) as [(E & l & Hl & El)|(E & Hl)].
  - left. rewrite Ms' by congruence. split; [exact E|]. exists l. split; [apply in_app_iff; now left|now apply G'].
  - destruct (Mn' E) as [(E' & l & Hl' & El')|(E' & Hl')].
    + left. split; [exact E'|]. exists l. split; [apply in_app_iff; now right|exact El'].
    + right. split; [exact E'|]. intros l Hi. apply in_app_iff in Hi as [Hi|Hi]; [|now apply Hl'].
      specialize (Hl l Hi). specialize (K l Hi). destruct (sym_in b l) as [y|] eqn:Ey; [|easy]. rewrite (G' l y Ey). exact Hl.
Qed.

(* a bad reference is found no matter when the option is looked up *)
Lemma bad_ref_back p ls s s' l m : spec_ok s -> spec_ok s' -> recorded p ls s s' -> bad_ref s' l m -> bad_ref s l m.
Proof.
  intros Ok Ok' (G & K & N & F & I & L & O1 & O2 & O3 & M) (i & q & j & o & H1 & H2 & H3 & H4 & H5).
  destruct (M i) as (Mo & _ & _). unfold proto_at in Mo. rewrite H2 in Mo. cbn in Mo.
  destruct (nth_error (k_protos s) i) as [q0|] eqn:E0.
  - exists i, q0, j, o. split; [|split; [exact E0|]; split; [congruence|]; rewrite <- O1; auto].
    destruct (sym_in s l) as [y|] eqn:Ey; [rewrite <- H1; symmetry; now apply G|].
    specialize (F l i Ey H1). apply nth_error_None in F. congruence.
  - cbn in Mo. congruence.
Qed.

Lemma bad_ref_forth p ls s s' l m : recorded p ls s s' -> bad_ref s l m -> bad_ref s' l m.
Proof.
  intros (G & K & N & F & I & L & O1 & O2 & O3 & M) (i & q & j & o & H1 & H2 & H3 & H4 & H5).
  destruct (M i) as (Mo & _ & _). unfold proto_at in Mo. rewrite H2 in Mo.
  destruct (nth_error (k_protos s') i) as [q0|] eqn:E0; [|cbn in Mo; congruence].
  exists i, q0, j, o. split; [now apply G|]. split; [exact E0|]. split; [congruence|]. rewrite O1. auto.
Qed.

Lemma land_flag a f : has_attr a f = true <-> Z.land a f <> 0%Z.
Proof. unfold has_attr. rewrite negb_true_iff, Z.eqb_neq. reflexivity. Qed.

Lemma keyword_step p s t s' i : spec_ok s -> ensure_keyword s t = (s', i) ->
  spec_ok s' /\ recorded p [LKeyword t] s s' /\ sym_in s' (LKeyword t) = Some (Psym s_keyword i).
Proof.
  intros (Ok1 & Ok2 & Ok3 & Ok4). unfold ensure_keyword.
  destruct (memplace text_eqb t (length (k_keywords s)) (k_keyword_map s)) as [m r] eqn:E.
  apply memplace_spec in E as [(-> & F & E)|(j & -> & F & ->)]; intros H; injection H as <- <-.
  - assert (FK : forall t2, find_keyword (Spec (k_keywords s ++ [t]) (k_protos s) (k_forms s) (k_patterns s) (k_options s) m (k_short_map s) (k_long_map s)) t2
      = match find_keyword s t2 with Some j => Some j | None => if text_eqb t2 t then Some (length (k_keywords s)) else None end) by (intros t2; apply E).
    assert (Same : forall l i, sym_in (Spec (k_keywords s ++ [t]) (k_protos s) (k_forms s) (k_patterns s) (k_options s) m (k_short_map s) (k_long_map s)) l = Some (Psym s_proto_option i) <->
      sym_in s l = Some (Psym s_proto_option i)).
    { intros [t2|t2|t2|t2] i; cbn [sym_in]; try reflexivity. rewrite FK. destruct (find_keyword s t2), (text_eqb t2 t); cbn; split; discriminate. }
    split; [|split].
    + split; [|auto]. intros t2 i. rewrite FK. cbn [k_keywords]. rewrite nth_snoc. specialize (Ok1 t2 i).
      destruct (Nat.eqb_spec i (length (k_keywords s))) as [->|Ni].
      * assert (X : nth_error (k_keywords s) (length (k_keywords s)) = None) by (apply nth_error_None; lia).
        destruct (find_keyword s t2) as [j|] eqn:E2.
        -- split; intros H; injection H as ->.
           ++ rewrite X in Ok1. destruct Ok1 as [Ok1 _]. now specialize (Ok1 eq_refl).
           ++ unfold find_keyword in E2. congruence.
        -- destruct (text_eqb t2 t) eqn:Et; split; intros H; try discriminate; try reflexivity.
           ++ apply text_eqb_eq in Et. now subst.
           ++ injection H as ->. rewrite (proj2 (text_eqb_eq t2 t2) eq_refl) in Et. discriminate.
      * destruct (find_keyword s t2) as [j|] eqn:E2; [exact Ok1|]. destruct (text_eqb t2 t); [|exact Ok1].
        split; intros H; [injection H; lia|]. apply Ok1 in H. discriminate.
    + unfold recorded. split.
      { intros [t2|t2|t2|t2] y; cbn [sym_in]; auto. rewrite FK. now destruct (find_keyword s t2). }
      split. { intros l [<-|[]]. cbn [sym_in]. rewrite FK. destruct (find_keyword s t); [easy|]. rewrite (proj2 (text_eqb_eq t t) eq_refl). easy. }
      split. { intros [t2|t2|t2|t2] y; cbn [sym_in]; auto. rewrite FK. destruct (find_keyword s t2) eqn:E2; [auto|]. destruct (text_eqb t2 t) eqn:Et; [|easy].
        intros H. right. exists (LKeyword t). split; [now left|]. cbn [sym_in]. apply text_eqb_eq in Et. subst t2. rewrite FK, E2, (proj2 (text_eqb_eq t t) eq_refl). exact H. }
      split. { intros l i H1 H2. apply Same in H2. congruence. }
      split. { intros l l' i H1 _ H2. apply Same in H2. congruence. }
      split; [apply le_n|]. split; [reflexivity|]. split; [reflexivity|]. split; [reflexivity|].
      intros i. split; [reflexivity|]. split; [reflexivity|]. intros H. right. split; [exact H|].
      intros l [<-|[]]. cbn [sym_in]. rewrite FK. destruct (find_keyword s t), (text_eqb t t); cbn; discriminate.
    + cbn [sym_in]. rewrite FK. unfold find_keyword. rewrite F. rewrite (proj2 (text_eqb_eq t t) eq_refl). reflexivity.
  - assert (X : sym_in s (LKeyword t) = Some (Psym s_keyword j)) by (cbn [sym_in]; unfold find_keyword; now rewrite F).
    split; [now split|]. split; [|exact X].
    destruct (recorded_refl p s) as (A & B & C & D). split; [auto|]. split; [intros l [<-|[]]; congruence|]. split; [auto|].
    destruct D as (D1 & D2 & D3 & D4 & D5 & D6 & D7). repeat (split; [assumption|]). intros i. split; [reflexivity|]. split; [reflexivity|]. intros H. right.
    split; [exact H|]. intros l [<-|[]]. congruence.
Qed.

Definition opt_leaf (f : oform) : leaf := if of_long f then LLong (of_lexeme f) else LShort (of_lexeme f).

(* the form is entered in the maps *)
Lemma proto_step s f : spec_ok s -> leaf_ok (opt_leaf f) -> exists s1 i, ensure_proto s f = POk (s1, i) /\ spec_ok s1 /\
  k_keywords s1 = k_keywords s /\ k_forms s1 = k_forms s /\ k_patterns s1 = k_patterns s /\ k_options s1 = k_options s /\
  sym_in s1 (opt_leaf f) = Some (Psym s_proto_option i) /\
  (forall l y, sym_in s l = Some y -> sym_in s1 l = Some y) /\
  (forall l y, sym_in s l = None -> sym_in s1 l = Some y -> i = length (k_protos s) /\ y = Psym s_proto_option i /\ same_form l (opt_leaf f)) /\
  length (k_protos s) <= length (k_protos s1) /\
  (forall k, proto_at s1 k = proto_at s k) /\ i < length (k_protos s1).
Proof.
  intros (Ok1 & Ok2 & Ok3 & Ok4). assert (PA : forall s0 ps, k_protos s0 = ps ++ [Proto None None] -> ps = k_protos s -> forall k, proto_at s0 k = proto_at s k).
  { intros s0 ps E -> k. unfold proto_at. rewrite E, nth_snoc. destruct (Nat.eqb_spec k (length (k_protos s))) as [->|N]; [|reflexivity].
    now rewrite (proj2 (nth_error_None (k_protos s) _)) by lia. }
  destruct f as [[|] t]; unfold opt_leaf, ensure_proto; cbn [of_long of_lexeme negb leaf_ok]; intros L.
  - destruct t as [|c0 [|c1 t]]; cbn [length] in L; try lia. cbn [substr_2 pget pbind].
    destruct (memplace text_eqb t (length (k_protos s)) (k_long_map s)) as [m r] eqn:E.
    apply memplace_spec in E as [(-> & F & E)|(j & -> & F & ->)].
    + eexists _, _. split; [reflexivity|].
      match goal with |- spec_ok ?z /\ _ => set (s1 := z) end.
      assert (FL : forall t2, find_long s1 t2 = match find_long s t2 with Some j => Some j | None => if text_eqb t2 t then Some (length (k_protos s)) else None end) by (intros t2; apply E).
      split.
      { split; [exact Ok1|]. split; [intros c i H; cbn [k_protos s1]; rewrite app_length; apply Ok2 in H; lia|]. split.
        - intros t2 i. rewrite FL. cbn [k_protos s1]. rewrite app_length. cbn [length]. destruct (find_long s t2) as [j|] eqn:E2.
          + intros H. injection H as <-. apply Ok3 in E2. lia.
          + destruct (text_eqb t2 t); [|easy]. intros H. injection H as <-. lia.
        - intros i p o. cbn [k_protos k_options s1]. rewrite nth_snoc. destruct (i =? length (k_protos s)); [|apply Ok4].
          intros H. injection H as <-. discriminate. }
      do 4 (split; [reflexivity|]). split.
      { cbn [sym_in skipn]. rewrite FL. unfold find_long. rewrite F. rewrite (proj2 (text_eqb_eq t t) eq_refl). reflexivity. }
      split. { intros [t2|t2|t2|t2] y; cbn [sym_in]; auto. rewrite FL. now destruct (find_long s (skipn 2 t2)). }
      split. { intros [t2|t2|t2|t2] y; cbn [sym_in]; try (intros A B; exfalso; refine (_ (eq_trans (eq_sym A) B)); discriminate).
        rewrite FL. destruct (find_long s (skipn 2 t2)) eqn:E2; [easy|]. destruct (text_eqb (skipn 2 t2) t) eqn:Et; [|easy].
        intros _ H. injection H as <-. split; [reflexivity|]. split; [reflexivity|]. now apply text_eqb_eq in Et. }
      split; [cbn; rewrite app_length; lia|]. split; [now apply (PA s1 (k_protos s))|]. cbn. rewrite app_length. cbn. lia.
    + eexists _, _. split; [reflexivity|]. split; [now split|]. do 4 (split; [reflexivity|]). split; [cbn [sym_in skipn]; unfold find_long; now rewrite F|].
      split; [auto|]. split; [congruence|]. split; [lia|]. split; [auto|]. now apply (Ok3 t).
  - destruct t as [|c0 [|c1 t]]; cbn [length] in L; try lia. cbn [nth_error pget pbind].
    destruct (memplace Nat.eqb c1 (length (k_protos s)) (k_short_map s)) as [m r] eqn:E.
    apply memplace_spec in E as [(-> & F & E)|(j & -> & F & ->)].
    + eexists _, _. split; [reflexivity|].
      match goal with |- spec_ok ?z /\ _ => set (s1 := z) end.
      assert (FL : forall t2, find_short s1 t2 = match find_short s t2 with Some j => Some j | None => if Nat.eqb t2 c1 then Some (length (k_protos s)) else None end) by (intros t2; apply E).
      split.
      { split; [exact Ok1|]. split; [|split; [intros t2 i H; cbn [k_protos s1]; rewrite app_length; apply Ok3 in H; lia|]].
        - intros t2 i. rewrite FL. cbn [k_protos s1]. rewrite app_length. cbn [length]. destruct (find_short s t2) as [j|] eqn:E2.
          + intros H. injection H as <-. apply Ok2 in E2. lia.
          + destruct (t2 =? c1); [|easy]. intros H. injection H as <-. lia.
        - intros i p o. cbn [k_protos k_options s1]. rewrite nth_snoc. destruct (i =? length (k_protos s)); [|apply Ok4].
          intros H. injection H as <-. discriminate. }
      do 4 (split; [reflexivity|]). split.
      { cbn [sym_in nth_error]. rewrite FL. unfold find_short. rewrite F. rewrite Nat.eqb_refl. reflexivity. }
      split. { intros [t2|t2|t2|t2] y; cbn [sym_in]; auto. destruct (nth_error t2 1) as [c|]; [|auto]. rewrite FL. now destruct (find_short s c). }
      split. { intros [t2|t2|t2|t2] y; cbn [sym_in same_form]; try (intros A B; exfalso; refine (_ (eq_trans (eq_sym A) B)); discriminate).
        destruct (nth_error t2 1) as [c|] eqn:Ec; [|easy]. rewrite FL. destruct (find_short s c) eqn:E2; [easy|]. destruct (Nat.eqb_spec c c1) as [->|]; [|easy].
        intros _ H. injection H as <-. split; [reflexivity|]. split; [reflexivity|]. reflexivity. }
      split; [cbn; rewrite app_length; lia|]. split; [now apply (PA s1 (k_protos s))|]. cbn. rewrite app_length. cbn. lia.
    + eexists _, _. split; [reflexivity|]. split; [now split|]. do 4 (split; [reflexivity|]). split; [cbn [sym_in nth_error]; unfold find_short; now rewrite F|].
      split; [auto|]. split; [congruence|]. split; [lia|]. split; [auto|]. now apply (Ok2 c1).
Qed.

Lemma option_step p s f : spec_ok s -> leaf_ok (opt_leaf f) ->
  (exists s' i, ensure_pattern_option s f p = POk (s', i) /\ spec_ok s' /\ recorded p [opt_leaf f] s s' /\
     sym_in s' (opt_leaf f) = Some (Psym s_proto_option i) /\ forall m, ~ bad_ref s (opt_leaf f) m) \/
  (exists m, ensure_pattern_option s f p = PErr bad_option_ref m /\ bad_ref s (opt_leaf f) m).
Proof.
  intros Ok L. destruct (proto_step s f Ok L) as (s1 & i & E & Ok1 & K1 & K2 & K3 & K4 & Sy & G & N & Le & PA & Bi).
  unfold ensure_pattern_option. rewrite E. cbn [pbind].
  destruct (nth_error (k_protos s1) i) as [q|] eqn:Eq; [|apply nth_error_None in Eq; lia]. cbn [pget pbind].
  assert (Fresh : sym_in s (opt_leaf f) = None -> pr_option q = None).
  { intros H. destruct (N _ _ H Sy) as (Ei & _ & _). specialize (PA i). unfold proto_at in PA. rewrite Eq in PA.
    rewrite (proj2 (nth_error_None (k_protos s) i)) in PA by lia. now subst q. }
  assert (Old : forall j, pr_option q = Some j -> sym_in s (opt_leaf f) = Some (Psym s_proto_option i) /\ exists q0, nth_error (k_protos s) i = Some q0 /\ pr_option q0 = Some j).
  { intros j H. split.
    - destruct (sym_in s (opt_leaf f)) as [y|] eqn:Ey; [rewrite <- Sy; symmetry; now apply G|]. rewrite (Fresh eq_refl) in H. discriminate.
    - specialize (PA i). unfold proto_at in PA. rewrite Eq in PA. destruct (nth_error (k_protos s) i) as [q0|]; [|subst q; discriminate].
      exists q0. split; [reflexivity|congruence]. }
  (* the second part *)
  assert (Fin : (forall m, ~ bad_ref s (opt_leaf f) m) -> exists s' i',
    match pr_pattern q with
    | Some _ => POk (s1, i)
    | None => let* protos := pget (set_nth (k_protos s1) i (Proto (Some p) (pr_option q))) in
      POk (Spec (k_keywords s1) protos (k_forms s1) (k_patterns s1) (k_options s1) (k_keyword_map s1) (k_short_map s1) (k_long_map s1), i)
    end = POk (s', i') /\ spec_ok s' /\ recorded p [opt_leaf f] s s' /\
     sym_in s' (opt_leaf f) = Some (Psym s_proto_option i') /\ forall m, ~ bad_ref s (opt_leaf f) m).
  { intros NB.
    assert (H : exists s', match pr_pattern q with
      | Some _ => POk (s1, i)
      | None => let* protos := pget (set_nth (k_protos s1) i (Proto (Some p) (pr_option q))) in
        POk (Spec (k_keywords s1) protos (k_forms s1) (k_patterns s1) (k_options s1) (k_keyword_map s1) (k_short_map s1) (k_long_map s1), i)
      end = POk (s', i) /\ k_keywords s' = k_keywords s1 /\ k_forms s' = k_forms s1 /\ k_patterns s' = k_patterns s1 /\ k_options s' = k_options s1 /\
      k_keyword_map s' = k_keyword_map s1 /\ k_short_map s' = k_short_map s1 /\ k_long_map s' = k_long_map s1 /\
      length (k_protos s') = length (k_protos s1) /\
      forall k, proto_at s' k = if k =? i then Proto (Some match pr_pattern q with Some j => j | None => p end) (pr_option q) else proto_at s1 k).
    { destruct (pr_pattern q) as [j|] eqn:Ep.
      - exists s1. split; [reflexivity|]. do 8 (split; [reflexivity|]). intros k. destruct (Nat.eqb_spec k i) as [->|]; [|reflexivity].
        unfold proto_at. rewrite Eq. destruct q as [qp qo]. cbn in *. now subst qp.
      - destruct (set_nth (k_protos s1) i (Proto (Some p) (pr_option q))) as [l|] eqn:El; [|rewrite set_nth_some in El by exact Bi; discriminate]. cbn [pget pbind].
        eexists. split; [reflexivity|]. do 7 (split; [reflexivity|]). cbn [k_protos]. split; [now apply (set_nth_length _ _ _ _ El)|].
        intros k. unfold proto_at. cbn [k_protos]. rewrite (nth_error_set_nth _ _ _ _ _ El). destruct (Nat.eqb_spec k i) as [->|Nk]; [now rewrite ?Nat.eqb_refl|].
        destruct (Nat.eqb_spec i k); [congruence|reflexivity]. }
    destruct H as (s' & Es' & J1 & J2 & J3 & J4 & J5 & J6 & J7 & J8 & J9). exists s', i. split; [exact Es'|].
    assert (Sym : forall l, sym_in s' l = sym_in s1 l).
    { intros [t|t|t|t]; cbn [sym_in]; unfold find_keyword, find_short, find_long; now rewrite ?J5, ?J6, ?J7. }
    assert (PI : forall k, pr_option (proto_at s' k) = pr_option (proto_at s1 k)).
    { intros k. rewrite J9. destruct (Nat.eqb_spec k i) as [->|]; [|reflexivity]. unfold proto_at. now rewrite Eq. }
    split.
    { destruct Ok1 as (A & B & C & D). split; [unfold find_keyword; rewrite J1, J5; exact A|].
      split; [unfold find_short; rewrite J6, J8; exact B|]. split; [unfold find_long; rewrite J7, J8; exact C|].
      intros k q' o H1 H2. rewrite J4. specialize (PI k). unfold proto_at in PI. rewrite H1 in PI.
      destruct (nth_error (k_protos s1) k) as [q1|] eqn:E1; [|cbn in PI; congruence]. apply (D k q1 o E1). congruence. }
    split; [|split; [now rewrite Sym|exact NB]].
    unfold recorded. split; [intros l y H; rewrite Sym; now apply G|]. split; [intros l [<-|[]]; rewrite Sym; congruence|].
    split.
    { intros l y H. rewrite Sym in H. destruct (sym_in s l) as [y0|] eqn:Ey.
      - left. rewrite <- H. symmetry. now apply G.
      - right. destruct (N l y Ey H) as (_ & -> & _). exists (opt_leaf f). split; [now left|now rewrite Sym]. }
    split. { intros l k H1 H2. rewrite Sym in H2. destruct (N l _ H1 H2) as (-> & X & _). injection X as ->. lia. }
    split.
    { intros l l' k H1 H1' H2 H2'. rewrite Sym in H2, H2'. destruct (N l _ H1 H2) as (_ & _ & X), (N l' _ H1' H2') as (_ & _ & X').
      unfold opt_leaf, same_form in *. destruct (of_long f), l, l'; try easy; congruence. }
    split; [lia|]. split; [congruence|]. split; [congruence|]. split; [congruence|].
    intros k. split; [now rewrite PI, PA|]. rewrite J9. specialize (PA k). destruct (Nat.eqb_spec k i) as [->|Nk].
    - assert (Eq' : proto_at s1 i = q) by (unfold proto_at; now rewrite Eq). rewrite Eq' in PA. rewrite <- PA. cbn [pr_pattern]. split.
      + intros H. now destruct (pr_pattern q).
      + intros H. rewrite H. left. split; [reflexivity|]. exists (opt_leaf f). split; [now left|now rewrite Sym].
    - rewrite PA. split; [auto|]. intros H. right. split; [exact H|]. intros l [<-|[]]. rewrite Sym, Sy. congruence. }
  assert (NoRef : forall m j o, pr_option q = Some j -> nth_error (k_options s1) j = Some o -> bad_ref s (opt_leaf f) m -> bad_option o m).
  { intros m j o H1 H2 (i0 & q0 & j0 & o0 & B1 & B2 & B3 & B4 & B5). destruct (Old j H1) as (X & q1 & Y1 & Y2). rewrite X in B1. injection B1 as <-.
    rewrite Y1 in B2. injection B2 as <-. rewrite Y2 in B3. injection B3 as <-. rewrite K4 in H2. congruence. }
  destruct (pr_option q) as [j|] eqn:Ej.
  - destruct (Old j eq_refl) as (Hs & q0 & Hq0 & Hj).
    destruct (nth_error (k_options s1) j) as [o|] eqn:Eo.
    2:{ exfalso. destruct Ok1 as (_ & _ & _ & D). specialize (D i q j Eq Ej). apply nth_error_None in Eo. lia. }
    cbn [pget pbind].
    assert (Bad : forall m, bad_option o m -> bad_ref s (opt_leaf f) m).
    { intros m B. exists i, q0, j, o. rewrite K4 in Eo. auto. }
    destruct (ar_allow (o_arg o)) eqn:B1.
    { right. exists ref_takes_arg. split; [reflexivity|]. apply Bad. left. auto. }
    destruct (has_attr (o_attr o) short_circuit) eqn:B2.
    { right. exists ref_short_circuit. split; [reflexivity|]. apply Bad. right. left. split; [reflexivity|]. now apply land_flag in B2. }
    destruct (has_attr (o_attr o) further_args_are_values) eqn:B3.
    { right. exists ref_further_values. split; [reflexivity|]. apply Bad. right. right. split; [reflexivity|]. now apply land_flag in B3. }
    cbn [pbind]. left.
    assert (NB : forall m, ~ bad_ref s (opt_leaf f) m).
    { intros m Hm. destruct (NoRef m j o eq_refl Eo Hm) as [(_ & B)|[(_ & B)|(_ & B)]].
      - congruence.
      - apply (proj2 (land_flag (o_attr o) short_circuit)) in B. congruence.
      - apply (proj2 (land_flag (o_attr o) further_args_are_values)) in B. congruence. }
    destruct (Fin NB) as (s' & i' & X). exists s', i'. exact X.
  - cbn [pbind]. left.
    assert (NB : forall m, ~ bad_ref s (opt_leaf f) m).
    { intros m (i0 & q0 & j0 & o0 & B1 & B2 & B3 & B4 & B5). pose proof (G _ _ B1) as X. rewrite Sy in X. injection X as <-.
      specialize (PA i). unfold proto_at in PA. rewrite Eq, B2 in PA. congruence. }
    destruct (Fin NB) as (s' & i' & X). exists s', i'. exact X.
Qed.
