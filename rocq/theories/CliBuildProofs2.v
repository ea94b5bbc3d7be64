(* Construction of the command-line processor: the patterns *)
From Coq Require Import List Arith Bool ZArith Lia.
From Verif Require Import CliPatternModel CliPatternSpec CliSpecModel CliRecorderModel CliRecorderSpec CliSpecProofs CliAmbigProofs CliRecorderProofs CliRecorderProofs2
  CliRecorderProofs3 CliRecorderProps CliParserModel CliParserSpec CliParserProofs3 CliParserProps CliOptionSpec CliOptionProps CliBuildModel CliBuildSpec CliBuildProofs.
Import ListNotations.

Lemma opts_registered ds ms s : opts_in ds ms s -> registered ds ms [] s.
Proof.
  intros O. pose proof O as [Op Ok Pr Os Le Ss]. destruct Op as ((O1 & O2 & O3 & O4) & Np & Al). split; [exact Np|]. split.
  { clear - Os. induction Os as [|o x os xs H Os IH]; constructor; [|exact IH]. unfold opt_as in H. tauto. }
  split; [exact Le|]. split.
  { intros w. split; [|easy]. intros H. destruct (find_keyword s w) as [i|] eqn:E; [|easy]. apply O1 in E. rewrite Ok in E. now destruct i. }
  split; [|split; [|split]].
  - intros l Hl. split.
    + intros H. destruct (sym_in s l) as [y|] eqn:E; [|easy]. destruct (option_name_sym _ _ _ Hl E) as (i & ->). left. exists i. now apply Ss.
    + intros [(j & H)|(l' & [] & _)]. apply Ss in H; [congruence|exact Hl].
  - intros l l' i Hl Hl' E. split.
    + intros E'. right. exists i. split; now apply Ss.
    + intros [H|(j & H & H')]; [now rewrite <- (same_form_sym_in s _ _ H)|]. apply Ss in H, H'; try assumption. congruence.
  - intros l i j Hl E. rewrite (protos_at s _ i Pr).
    assert (L : i <? length (k_options s) = true) by (apply Nat.ltb_lt; apply sym_in_bound in E; [rewrite Pr, map_length, seq_length in E; exact E|easy]).
    rewrite L. cbn. split; [intros [= <-]; now apply Ss|]. intros H. apply Ss in H; [congruence|exact Hl].
  - intros i. rewrite (protos_at s _ i Pr). split; [now destruct (i <? length (k_options s))|]. now intros (l & [] & _).
Qed.

Lemma proto_beyond s i : length (k_protos s) <= i -> proto_at s i = Proto None None.
Proof. intros H. unfold proto_at. now rewrite (proj2 (nth_error_None _ _)). Qed.

Lemma leaf_name l s i : leaf_ok l -> sym_in s l = Some (Psym s_proto_option i) -> option_name l.
Proof. destruct l as [t|t|t|t]; cbn [leaf_ok option_name sym_in]; try easy. destruct (find_keyword s t); discriminate. Qed.

Section Registered.
  Variable ds : list option_decl.
  Variable ms : list meaning.
  Variable ts : list (option ptree).
  Variable t : option ptree.
  Variable s s1 : spec.
  Variable pi : nat.
  Hypothesis Ok : spec_ok s.
  Hypothesis Ok1 : spec_ok s1.
  Hypothesis R : registered ds ms ts s.
  Hypothesis Rc : recorded pi (root_leaves t) s s1.
  Hypothesis Hl : forall l, In l (root_leaves t) -> leaf_ok l.
  Hypothesis Hls : forall l, In l (flat_map tree_leaves ts) -> leaf_ok l.

  Lemma known_before l : In l (flat_map tree_leaves ts) -> forall i, sym_in s1 l = Some (Psym s_proto_option i) -> sym_in s l = Some (Psym s_proto_option i).
  Proof.
    intros H i E. destruct R as (_ & _ & _ & _ & Rn & _). pose proof (leaf_name _ _ _ (Hls l H) E) as N.
    destruct (sym_in s l) as [y|] eqn:Ey; [pose proof (proj1 Rc _ _ Ey); congruence|]. exfalso. apply (proj2 (Rn l N)); [|exact Ey].
    right. exists l. split; [exact H|]. now apply same_form_refl.
  Qed.

  Lemma registered_more : registered ds ms (ts ++ [t]) (count_pattern s1).
  Proof.
    destruct R as (R1 & R2 & R3 & R4 & R5 & R6 & R7 & R8). destruct Rc as (C1 & C2 & C3 & C4 & C5 & C6 & C7 & C8 & C9 & C10).
    unfold registered. change (find_keyword (count_pattern s1)) with (find_keyword s1). change (k_options (count_pattern s1)) with (k_options s1).
    change (k_forms (count_pattern s1)) with (k_forms s1).
    assert (Sy : forall l, sym_in (count_pattern s1) l = sym_in s1 l) by (intros [x|x|x|x]; reflexivity).
    assert (Pa : forall i, proto_at (count_pattern s1) i = proto_at s1 i) by reflexivity.
    split; [cbn; rewrite app_length, C9, R1; cbn; lia|]. split; [rewrite C7, C8; exact R2|]. split; [exact R3|].
    rewrite flat_map_app. cbn [flat_map]. rewrite app_nil_r. change (tree_leaves t) with (root_leaves t).
    split; [|split; [|split; [|split]]].
    - intros w. rewrite in_app_iff. split.
      + intros H. destruct (find_keyword s1 w) as [k|] eqn:E; [|easy]. assert (E' : sym_in s1 (LKeyword w) = Some (Psym s_keyword k)) by (cbn [sym_in]; now rewrite E).
        destruct (C3 _ _ E') as [E2|(l' & H' & E2)].
        * left. apply R4. cbn [sym_in] in E2. destruct (find_keyword s w); easy.
        * right. destruct l' as [x|x|x|x]; cbn [sym_in] in E2.
          -- destruct (find_keyword s1 x) as [k'|] eqn:Ex; [|discriminate]. injection E2 as ->. apply (proj1 Ok1) in E, Ex. congruence.
          -- destruct (nth_error x 1) as [c|]; [|discriminate]. now destruct (find_short s1 c).
          -- now destruct (find_long s1 (skipn 2 x)).
          -- discriminate.
      + intros [H|H].
        * apply R4 in H. destruct (find_keyword s w) as [k|] eqn:E; [|easy]. specialize (C1 (LKeyword w) (Psym s_keyword k)). cbn [sym_in] in C1. rewrite E in C1.
          specialize (C1 eq_refl). now destruct (find_keyword s1 w).
        * apply C2 in H. cbn [sym_in] in H. now destruct (find_keyword s1 w).
    - intros l Nl. rewrite Sy. split.
      + intros H. destruct (sym_in s l) as [y|] eqn:Ey.
        * destruct (proj1 (R5 l Nl)) as [F|(l' & H' & Sf)]; [congruence|now left|]. right. exists l'. split; [apply in_app_iff; now left|exact Sf].
        * right. destruct (sym_in s1 l) as [y|] eqn:E; [|easy]. destruct (option_name_sym _ _ _ Nl E) as (i & ->).
          destruct (C3 _ _ E) as [E2|(l' & H' & E2)]; [congruence|]. exists l'. split; [apply in_app_iff; now right|].
          destruct (sym_in s l') as [y|] eqn:E'; [|now apply (C5 l l' i)].
          exfalso. pose proof (C1 _ _ E') as X. assert (y = Psym s_proto_option i) by congruence. subst y. apply sym_in_bound in E'; [|exact Ok]. specialize (C4 l i Ey E). lia.
      + intros [F|(l' & H' & Sf)].
        * assert (X : sym_in s l <> None) by (apply R5; auto). destruct (sym_in s l) as [y|] eqn:E; [|easy]. now rewrite (C1 _ _ E).
        * apply in_app_iff in H'. destruct H' as [H'|H'].
          -- assert (X : sym_in s l <> None) by (apply R5; [exact Nl|right; now exists l']). destruct (sym_in s l) as [y|] eqn:E; [|easy]. now rewrite (C1 _ _ E).
          -- rewrite (same_form_sym_in s1 _ _ Sf). now apply C2.
    - intros l l' i Nl Nl'. rewrite !Sy. intros E. split.
      + intros E'. destruct (sym_in s l) as [y|] eqn:Ey, (sym_in s l') as [y'|] eqn:Ey'.
        * pose proof (C1 _ _ Ey). pose proof (C1 _ _ Ey'). assert (y = Psym s_proto_option i) by congruence. assert (y' = Psym s_proto_option i) by congruence. subst.
          now apply (R6 l l' i).
        * exfalso. pose proof (C1 _ _ Ey) as X. assert (y = Psym s_proto_option i) by congruence. subst. apply sym_in_bound in Ey; [|exact Ok]. specialize (C4 l' i Ey' E'). lia.
        * exfalso. pose proof (C1 _ _ Ey') as X. assert (y' = Psym s_proto_option i) by congruence. subst. apply sym_in_bound in Ey'; [|exact Ok]. specialize (C4 l i Ey E). lia.
        * left. now apply (C5 l l' i).
      + intros [H|(j & H & H')]; [now rewrite <- (same_form_sym_in s1 _ _ H)|].
        assert (X : sym_in s l <> None) by (apply R5; [exact Nl|left; now exists j]). destruct (sym_in s l) as [y|] eqn:Ey; [|easy].
        destruct (option_name_sym _ _ _ Nl Ey) as (i' & ->). pose proof (C1 _ _ Ey) as X1. assert (i' = i) by congruence. subst i'.
        apply C1. apply (R6 l l' i Nl Nl' Ey). right. now exists j.
    - intros l i j Nl. rewrite Sy, Pa. intros E. rewrite (proj1 (C10 i)). destruct (sym_in s l) as [y|] eqn:Ey.
      + pose proof (C1 _ _ Ey). assert (y = Psym s_proto_option i) by congruence. subst y. now apply R7.
      + specialize (C4 l i Ey E). rewrite proto_beyond by exact C4. cbn. split; [discriminate|]. intros F. exfalso. apply (proj2 (R5 l Nl)); [left; now exists j|exact Ey].
    - intros i. rewrite Pa. destruct (C10 i) as (_ & K1 & K2). split.
      + intros H. destruct (pr_pattern (proto_at s i)) as [p|] eqn:Ep.
        * destruct (proj1 (R8 i)) as (l & H' & E); [congruence|]. exists l. split; [apply in_app_iff; now left|]. rewrite Sy. now apply C1.
        * destruct (K2 eq_refl) as [(_ & l & H' & E)|(E & _)]; [|congruence]. exists l. split; [apply in_app_iff; now right|]. now rewrite Sy.
      + intros (l & H & E). rewrite Sy in E. apply in_app_iff in H. destruct (pr_pattern (proto_at s i)) as [p|] eqn:Ep; [rewrite K1; congruence|].
        destruct (K2 eq_refl) as [(E' & _)|(E' & F)]; [congruence|]. exfalso. destruct H as [H|H]; [|now apply (F l H)].
        apply (proj2 (R8 i)); [|exact Ep]. exists l. split; [exact H|]. now apply known_before.
  Qed.

  Lemma elements_stay q : In q ts -> elements (sym_of s) q = elements (sym_of (count_pattern s1)) q.
  Proof.
    intros Hq. destruct q as [q|]; [|reflexivity]. cbn [elements]. f_equal. apply shape_ext. intros l H.
    assert (Hin : In l (flat_map tree_leaves ts)) by (apply in_flat_map; exists (Some q); auto).
    destruct R as (_ & _ & _ & R4 & R5 & _). unfold sym_of. assert (Sy : sym_in (count_pattern s1) l = sym_in s1 l) by (destruct l; reflexivity). rewrite Sy.
    destruct (sym_in s l) as [y|] eqn:E; [now rewrite (proj1 Rc _ _ E)|]. exfalso. pose proof (Hls l Hin) as Hok. destruct l as [x|x|x|x].
    - apply R4 in Hin. cbn in E. now destruct (find_keyword s x).
    - apply (proj2 (R5 (LShort x) Hok)); [|exact E]. right. exists (LShort x). split; [exact Hin|reflexivity].
    - apply (proj2 (R5 (LLong x) Hok)); [|exact E]. right. exists (LLong x). split; [exact Hin|reflexivity].
    - discriminate.
  Qed.
End Registered.
