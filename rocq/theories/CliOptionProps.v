(* Theorems about the registration of options (property C82). *)
From Coq Require Import List Arith Bool ZArith Lia.
From Verif Require Import CliPatternModel CliPatternSpec CliSpecModel CliRecorderModel CliRecorderSpec CliSpecProofs CliRecorderProps CliOptionSpec.
Import ListNotations.

Lemma opt_form_ok f : leaf_ok (opt_form f) -> exists a b r, of_lexeme f = a :: b :: r.
Proof. unfold opt_form. destruct (of_long f); cbn; destruct (of_lexeme f) as [|a [|b r]]; cbn; intros; try lia; now exists a, b, r. Qed.

(* registration of the forms *)
Lemma register_result fs : forall s pi, (forall f, In f fs -> leaf_ok (opt_form f)) ->
  (forall f, In f fs -> sym_in s (opt_form f) = None \/ sym_in s (opt_form f) = Some (Psym s_proto_option pi)) ->
  exists s', register_forms s fs pi = POk s' /\
    k_keywords s' = k_keywords s /\ k_protos s' = k_protos s /\ k_forms s' = k_forms s /\ k_patterns s' = k_patterns s /\ k_options s' = k_options s /\
    k_keyword_map s' = k_keyword_map s /\
    (forall c, find_short s' c = match find_short s c with Some j => Some j | None =>
       if existsb (fun f => negb (of_long f) && match nth_error (of_lexeme f) 1 with Some d => c =? d | None => false end) fs then Some pi else None end) /\
    (forall t, find_long s' t = match find_long s t with Some j => Some j | None =>
       if existsb (fun f => of_long f && text_eqb t (skipn 2 (of_lexeme f))) fs then Some pi else None end).
Proof.
  induction fs as [|f fs IH]; intros s pi L U.
  - exists s. cbn [register_forms existsb]. do 7 (split; [easy|]). split; intros; [now destruct (find_short s c)|now destruct (find_long s t)].
  - destruct (opt_form_ok f) as (a & b & r & Ef); [apply L; now left|]. cbn [register_forms]. rewrite Ef. cbn [nth_error substr_2 pget pbind].
    pose proof (U f (or_introl eq_refl)) as Uf. unfold opt_form in Uf. rewrite Ef in Uf. destruct (of_long f) eqn:El; cbn [negb].
    + cbn [pbind]. destruct (memplace text_eqb r pi (k_long_map s)) as [m x] eqn:Em. cbn [fst].
      set (s1 := Spec _ _ _ _ _ _ _ m).
      assert (F1 : forall t, find_long s1 t = match find_long s t with Some j => Some j | None => if text_eqb t r then Some pi else None end).
      { intros t. unfold find_long, s1. cbn [k_long_map]. apply memplace_spec in Em as [(_ & _ & E)|(j & _ & E & ->)]; [apply E|].
        destruct (mfind text_eqb t (k_long_map s)) eqn:Et; [easy|]. destruct (text_eqb t r) eqn:Er; [|easy]. apply text_eqb_eq in Er. congruence. }
      destruct (IH s1 pi) as (s' & A & B1 & B2 & B3 & B4 & B5 & B6 & C & D).
      { intros g Hg. apply L. now right. }
      { intros g Hg. destruct (U g (or_intror Hg)) as [H|H]; unfold opt_form in *; destruct (of_long g); cbn [sym_in] in *.
        - rewrite F1. destruct (find_long s (skipn 2 (of_lexeme g))); [discriminate|]. destruct (text_eqb _ r); [now right|now left].
        - left. exact H.
        - rewrite F1. destruct (find_long s (skipn 2 (of_lexeme g))); [now right|discriminate].
        - right. exact H. }
      exists s'. split; [exact A|]. do 6 (split; [easy|]). split.
      * intros c. rewrite C. cbn [existsb]. rewrite El. cbn [negb andb orb]. easy.
      * intros t. rewrite D, F1. cbn [existsb]. rewrite El, Ef. cbn [andb skipn]. destruct (find_long s t); [easy|]. now destruct (text_eqb t r).
    + cbn [pbind]. destruct (memplace Nat.eqb b pi (k_short_map s)) as [m x] eqn:Em. cbn [fst].
      set (s1 := Spec _ _ _ _ _ _ m _).
      assert (F1 : forall t, find_short s1 t = match find_short s t with Some j => Some j | None => if t =? b then Some pi else None end).
      { intros t. unfold find_short, s1. cbn [k_short_map]. apply memplace_spec in Em as [(_ & _ & E)|(j & _ & E & ->)]; [apply E|].
        destruct (mfind Nat.eqb t (k_short_map s)) eqn:Et; [easy|]. destruct (t =? b) eqn:Er; [|easy]. apply Nat.eqb_eq in Er. congruence. }
      destruct (IH s1 pi) as (s' & A & B1 & B2 & B3 & B4 & B5 & B6 & C & D).
      { intros g Hg. apply L. now right. }
      { intros g Hg. destruct (U g (or_intror Hg)) as [H|H]; unfold opt_form in *; destruct (of_long g); cbn [sym_in] in *.
        - left. exact H.
        - destruct (nth_error (of_lexeme g) 1) as [d|]; [|now left]. rewrite F1. destruct (find_short s d); [discriminate|]. destruct (d =? b); [now right|now left].
        - right. exact H.
        - destruct (nth_error (of_lexeme g) 1) as [d|]; [|discriminate]. rewrite F1. destruct (find_short s d); [now right|discriminate]. }
      exists s'. split; [exact A|]. do 6 (split; [easy|]). split.
      * intros c. rewrite C, F1. cbn [existsb]. rewrite El, Ef. cbn [negb andb nth_error]. destruct (find_short s c); [easy|]. now destruct (c =? b).
      * intros t. rewrite D. cbn [existsb]. rewrite El. cbn [andb orb]. easy.
Qed.

(* the search for previous use *)
Lemma reuse_result s fs : open_spec s -> (forall f, In f fs -> leaf_ok (opt_form f)) ->
  (check_reuse s fs = POk tt /\ forall f, In f fs -> sym_in s (opt_form f) = None) \/
  (exists f j, check_reuse s fs = PErr option_form_reuse (form_reuse (1 + j)) /\ In f fs /\ form_of s f j).
Proof.
  intros (Ok & Np & Op). induction fs as [|f fs IH]; intros L; [now left|].
  destruct (opt_form_ok f) as (a & b & r & Ef); [apply L; now left|]. cbn [check_reuse]. rewrite Ef. cbn [nth_error substr_2 pget pbind].
  assert (Ex : (if negb (of_long f) then POk (find_short s b) else POk (find_long s r)) =
    POk (match sym_in s (opt_form f) with Some y => Some (s_index y) | None => None end)).
  { unfold opt_form. rewrite Ef. destruct (of_long f); cbn; [now destruct (find_long s r)|now destruct (find_short s b)]. }
  rewrite Ex. cbn [pbind]. destruct (sym_in s (opt_form f)) as [y|] eqn:Ey.
  - right. assert (T : y = Psym s_proto_option (s_index y)).
    { unfold opt_form in Ey. rewrite Ef in Ey. destruct (of_long f); cbn in Ey; [destruct (find_long s r)|destruct (find_short s b)]; try discriminate; now injection Ey as <-. }
    rewrite T in Ey. pose proof (sym_in_bound s _ _ Ok Ey) as Hb. destruct (nth_error (k_protos s) (s_index y)) as [p|] eqn:Ep; [|apply nth_error_None in Ep; lia].
    cbn [pget pbind]. pose proof (Op _ _ Ep) as Hp. destruct (pr_option p) as [j|] eqn:Ej; [|easy]. exists f, j. split; [easy|]. split; [now left|].
    exists (s_index y). split; [exact Ey|]. unfold proto_at. now rewrite Ep.
  - destruct IH as [(E & H)|(g & j & E & Hg & Fg)]; [intros g Hg; apply L; now right| |].
    + left. split; [exact E|]. intros g [<-|Hg]; auto.
    + right. exists g, j. split; [exact E|]. split; [now right|easy].
Qed.

Lemma flag_bits attr : (Z.land attr (Z.lnot 7) = 0 <-> forall n, 3 <= n -> Z.testbit attr n = false)%Z.
Proof.
  assert (B : forall n, (0 <= n -> Z.testbit 7 n = (n <? 3))%Z).
  { intros n Hn. destruct (Z.ltb_spec n 3).
    - assert (n = 0 \/ n = 1 \/ n = 2)%Z as [-> | [-> | ->]] by lia; reflexivity.
    - change 7%Z with (Z.ones 3). now rewrite Z.ones_spec_high by lia. }
  split.
  - intros H n Hn. assert (E : Z.testbit (Z.land attr (Z.lnot 7)) n = false) by (rewrite H; apply Z.bits_0).
    rewrite Z.land_spec, Z.lnot_spec, B in E by lia. rewrite (proj2 (Z.ltb_ge n 3)) in E by lia. now rewrite andb_true_r in E.
  - intros H. apply Z.bits_inj'. intros n Hn. rewrite Z.bits_0, Z.land_spec, Z.lnot_spec, B by lia.
    destruct (Z.ltb_spec n 3); [apply andb_false_r|]. now rewrite H by lia.
Qed.
Lemma has_attr_bit attr k : (0 <= k)%Z -> has_attr attr (2 ^ k) = Z.testbit attr k.
Proof.
  intros Hk. unfold has_attr. destruct (Z.testbit attr k) eqn:E.
  - apply negb_true_iff, Z.eqb_neq. intros H. assert (X : Z.testbit (Z.land attr (2 ^ k)) k = false) by (rewrite H; apply Z.bits_0).
    rewrite Z.land_spec, E, Z.pow2_bits_true in X by lia. discriminate.
  - apply negb_false_iff, Z.eqb_eq. apply Z.bits_inj'. intros n Hn. rewrite Z.bits_0, Z.land_spec, Z.pow2_bits_eqb by lia.
    destruct (Z.eqb_spec k n) as [<-|]; [now rewrite E|apply andb_false_r].
Qed.

(* An option is registered if, and only if nothing is wrong with it.  When it is, its forms,
   and no others, come to stand for it, whatever was known stays known, and the option is
   the last one. *)
Theorem add_option_exact s offset size arg attr act : open_spec s ->
  let fs := firstn size (skipn offset (k_forms s)) in
  offset + size <= length (k_forms s) -> (forall f, In f fs -> leaf_ok (opt_form f)) ->
  match add_option s (offset, size) arg attr act with
  | POk s' =>
    (forall c m, ~ option_flaw s fs arg attr act c m) /\ open_spec s' /\
    k_options s' = k_options s ++ [Optspec (offset, size) arg attr act] /\
    k_protos s' = k_protos s ++ [Proto None (Some (length (k_options s)))] /\ k_forms s' = k_forms s /\ k_keywords s' = k_keywords s /\
    (forall l y, sym_in s l = Some y -> sym_in s' l = Some y) /\
    (forall i j, pr_option (proto_at s i) = Some j -> pr_option (proto_at s' i) = Some j) /\
    (forall f, form_of s' f (length (k_options s)) <-> exists g, In g fs /\ same_form (opt_form f) (opt_form g)) /\
    (forall l, sym_in s l = None -> sym_in s' l <> None -> exists g, In g fs /\ same_form l (opt_form g))
  | PErr c m => option_flaw s fs arg attr act c m
  | PBad => False
  end.
Proof.
  intros Op fs Hr L. pose proof Op as ((O1 & O2 & O3 & O4) & Np & Al).
  assert (Lf : length fs = size). { unfold fs. rewrite firstn_length, skipn_length. lia. }
  unfold add_option. rewrite Np. cbn [Nat.eqb negb snd]. change (Z.lor short_circuit (Z.lor further_args_are_values unlisted)) with 7%Z.
  change (get_option_forms s (offset, size)) with fs.
  destruct (Nat.eqb_spec size 0) as [Hs|Hs].
  { left. split; [easy|]. split; [easy|]. destruct fs; [easy|]. cbn in Lf. lia. }
  destruct (Z.eqb_spec (Z.land attr (Z.lnot 7)) 0) as [Ha|Ha]; cbn [negb].
  2: { right. left. split; [easy|]. split; [easy|].
       (* a bit beyond *)
       set (x := Z.land attr (Z.lnot 7)) in *.
       assert (exists n, (0 <= n)%Z /\ Z.testbit x n = true) as (n & Hn & En).
       { destruct (Z_lt_le_dec x 0) as [Hx|Hx].
         - destruct (Z.bits_iff_neg_ex x) as [E _]. destruct (E Hx) as (k & Ek). exists (Z.max 0 k + 1)%Z. split; [lia|]. apply Ek. lia.
         - exists (Z.log2 x). split; [apply Z.log2_nonneg|]. apply Z.bit_log2. lia. }
       exists n. unfold x in En. rewrite Z.land_spec, Z.lnot_spec in En by easy. apply andb_prop in En. destruct En as (E1 & E2). split; [|exact E1].
       destruct (Z_lt_le_dec n 3); [|easy]. assert (n = 0 \/ n = 1 \/ n = 2)%Z as [-> | [-> | ->]] by lia; discriminate. }
  pose proof (proj1 (flag_bits attr) Ha) as Hb.
  rewrite (has_attr_bit attr 0 ltac:(lia) : has_attr attr short_circuit = _), (has_attr_bit attr 1 ltac:(lia) : has_attr attr further_args_are_values = _).
  assert (Arg : forall k : unit -> presult spec,
    (pbind (if ar_allow arg then
       if Z.testbit attr 0 then PErr option_arg_not_allowed arg_short_circuit
       else if Z.testbit attr 1 then PErr option_arg_not_allowed arg_further_values
       else if negb (ac_allow act) then PErr option_func_mismatch action_rejects_arg
       else if negb (ar_require arg) && ac_require act then PErr option_func_mismatch action_requires_arg
       else POk tt
     else POk tt) k) = k tt /\
     (ar_allow arg = true -> Z.testbit attr 0 = false /\ Z.testbit attr 1 = false /\ ac_allow act = true /\ (ar_require arg = false -> ac_require act = false)) \/
    (exists c m, option_flaw s fs arg attr act c m /\
    (pbind (if ar_allow arg then
       if Z.testbit attr 0 then PErr option_arg_not_allowed arg_short_circuit
       else if Z.testbit attr 1 then PErr option_arg_not_allowed arg_further_values
       else if negb (ac_allow act) then PErr option_func_mismatch action_rejects_arg
       else if negb (ar_require arg) && ac_require act then PErr option_func_mismatch action_requires_arg
       else POk tt
     else POk tt) k) = PErr c m)).
  { intros k. unfold option_flaw. destruct (ar_allow arg) eqn:E1; [|now left].
    destruct (Z.testbit attr 0) eqn:E2; [right; eexists _, _; split; [|easy]; tauto|].
    destruct (Z.testbit attr 1) eqn:E3; [right; eexists _, _; split; [|easy]; tauto|].
    destruct (ac_allow act) eqn:E4; cbn [negb]; [|right; eexists _, _; split; [|easy]; tauto].
    destruct (ar_require arg) eqn:E5, (ac_require act) eqn:E6; cbn [negb andb]; try (left; split; [easy|]; intros _; repeat split; easy).
    right; eexists _, _; split; [|easy]; tauto. }
  set (k := fun _ : unit => _) in *. destruct (Arg k) as [(-> & Ok5)|(c & m & F & ->)]; [|exact F]. clear Arg. unfold k. clear k.
  destruct (reuse_result s fs Op L) as [(-> & New)|(f & j & -> & Hf & Ff)]; cbn [pbind].
  2: { do 6 right. split; [easy|]. now exists f, j. }
  set (s1 := Spec _ (k_protos s ++ _) _ _ _ _ _ _). change (get_option_forms s1 (offset, size)) with fs.
  destruct (register_result fs s1 (length (k_protos s)) L) as (s' & -> & B1 & B2 & B3 & B4 & B5 & B6 & C & D).
  { intros f Hf. left. exact (New f Hf). }
  change (find_short s1) with (find_short s) in C. change (find_long s1) with (find_long s) in D. cbn in B1, B2, B3, B4, B5, B6.
  assert (K : forall t, find_keyword s' t = find_keyword s t) by (intros t; unfold find_keyword; now rewrite B6).
  assert (PA : forall i, proto_at s' i = if i =? length (k_protos s) then Proto None (Some (length (k_options s))) else proto_at s i).
  { intros i. unfold proto_at. rewrite B2, nth_snoc. now destruct (i =? length (k_protos s)). }
  assert (G : forall l y, sym_in s l = Some y -> sym_in s' l = Some y).
  { intros [t|t|t|t] y; cbn [sym_in]; [now rewrite K| | |easy].
    - destruct (nth_error t 1) as [c|]; [|easy]. rewrite C. now destruct (find_short s c).
    - rewrite D. now destruct (find_long s (skipn 2 t)). }
  assert (W : forall l, sym_in s l = None -> sym_in s' l <> None -> sym_in s' l = Some (Psym s_proto_option (length (k_protos s))) /\ exists g, In g fs /\ same_form l (opt_form g)).
  { intros [t|t|t|t]; cbn [sym_in]; [rewrite K; congruence| | |discriminate].
    - destruct (nth_error t 1) as [c|] eqn:Et; [|congruence]. rewrite C. destruct (find_short s c); [discriminate|]. intros _.
      destruct (existsb _ fs) eqn:Ee; [|cbn; congruence]. intros _. split; [easy|]. apply existsb_exists in Ee. destruct Ee as (g & Hg & Eg). exists g. split; [exact Hg|].
      unfold opt_form. destruct (of_long g); [discriminate|]. cbn [same_form]. destruct (nth_error (of_lexeme g) 1) as [d|] eqn:Ed; [|discriminate]. cbn in Eg. apply Nat.eqb_eq in Eg. congruence.
    - rewrite D. destruct (find_long s (skipn 2 t)); [discriminate|]. intros _.
      destruct (existsb _ fs) eqn:Ee; [|cbn; congruence]. intros _. split; [easy|]. apply existsb_exists in Ee. destruct Ee as (g & Hg & Eg). exists g. split; [exact Hg|].
      unfold opt_form. destruct (of_long g); [|discriminate]. cbn in *. now apply text_eqb_eq in Eg. }
  assert (V : forall l g, In g fs -> same_form l (opt_form g) -> sym_in s' l = Some (Psym s_proto_option (length (k_protos s)))).
  { intros l g Hg Sf. pose proof (New g Hg) as Ng. destruct (opt_form_ok g (L g Hg)) as (a & b & r & Eg). unfold opt_form in *. rewrite Eg in *.
    destruct (of_long g) eqn:El; destruct l as [t|t|t|t]; try easy; cbn in Sf, Ng |- *.
    - rewrite D, Sf. destruct (find_long s r); [discriminate|]. replace (existsb _ fs) with true; [easy|]. symmetry. apply existsb_exists. exists g. split; [exact Hg|].
      rewrite El, Eg. cbn. now apply text_eqb_eq.
    - rewrite Sf, C. destruct (find_short s b); [discriminate|]. replace (existsb _ fs) with true; [easy|]. symmetry. apply existsb_exists. exists g. split; [exact Hg|].
      rewrite El, Eg. cbn. apply Nat.eqb_refl. }
  assert (Ok' : spec_ok s').
  { split; [|split; [|split]].
    - intros t i. rewrite K, B1. apply O1.
    - intros c i. rewrite B2, app_length, C. cbn. destruct (find_short s c) eqn:Ec; [intros [= <-]; apply O2 in Ec; lia|]. destruct (existsb _ fs); [intros [= <-]; lia|easy].
    - intros c i. rewrite B2, app_length, D. cbn. destruct (find_long s c) eqn:Ec; [intros [= <-]; apply O3 in Ec; lia|]. destruct (existsb _ fs); [intros [= <-]; lia|easy].
    - intros i p o. rewrite B2, nth_snoc, B5, app_length. cbn. destruct (i =? length (k_protos s)); [intros [= <-]; cbn; intros [= <-]; lia|]. intros Ei Eo. pose proof (O4 i p o Ei Eo). lia. }
  split; [|split; [|split; [|split; [|split; [|split; [|split; [|split; [|split]]]]]]]].
  - intros c m F. unfold option_flaw in F. destruct F as [F|[F|[F|[F|[F|[F|F]]]]]].
    + destruct F as (_ & _ & F). rewrite F in Lf. cbn in Lf. lia.
    + destruct F as (_ & _ & n & Hn & F). rewrite Hb in F by easy. discriminate.
    + destruct F as (_ & _ & F1 & F2). apply Ok5 in F1. intuition congruence.
    + destruct F as (_ & _ & F1 & F2). apply Ok5 in F1. intuition congruence.
    + destruct F as (_ & _ & F1 & F2). apply Ok5 in F1. intuition congruence.
    + destruct F as (_ & _ & F1 & F2 & F3). apply Ok5 in F1. intuition congruence.
    + destruct F as (_ & f & j & _ & Hf & i & Ff & _). rewrite New in Ff by easy. discriminate.
  - split; [exact Ok'|]. split; [congruence|]. intros i p. rewrite B2, nth_snoc. destruct (i =? length (k_protos s)); [intros [= <-]; discriminate|apply Al].
  - exact B5.
  - exact B2.
  - exact B3.
  - exact B1.
  - exact G.
  - intros i j H. rewrite PA. destruct (Nat.eqb_spec i (length (k_protos s))) as [->|]; [|exact H]. exfalso. revert H. unfold proto_at.
    rewrite (proj2 (nth_error_None _ _)) by lia. discriminate.
  - intros f. split.
    + intros (i & Si & Pi). rewrite PA in Pi. destruct (Nat.eqb_spec i (length (k_protos s))) as [->|Ni].
      * apply W; [|congruence]. destruct (sym_in s (opt_form f)) as [y|] eqn:Ey; [|easy]. rewrite (G _ _ Ey) in Si. injection Si as ->. apply sym_in_bound in Ey; [lia|]. exact (proj1 Op).
      * exfalso. unfold proto_at in Pi. destruct (nth_error (k_protos s) i) as [p|] eqn:Ep; [|discriminate]. pose proof (O4 _ _ _ Ep Pi). lia.
    + intros (g & Hg & Sf). exists (length (k_protos s)). split; [eapply V; eassumption|]. rewrite PA, Nat.eqb_refl. easy.
  - intros l N1 N2. now apply W.
Qed.
Print Assumptions add_option_exact.

Definition two_forms : spec := Spec [] [] [Oform false [45; 120]; Oform true [45; 45; 98; 97; 114]] 0 [] [] [] [].
Example add_option_ex : open_spec two_forms /\ (forall f, In f (k_forms two_forms) -> leaf_ok (opt_form f)) /\
  match add_option two_forms (0, 2) (Argspec true true) 4 (Action true true) with
  | POk s =>
    find_short s 120 = Some 0 /\ find_long s [98; 97; 114] = Some 0 /\
    add_option s (1, 1) (Argspec false false) 0 (Action true false) = PErr option_form_reuse (form_reuse 1)
  | _ => False
  end.
Proof.
  split; [|split; [|now vm_compute]].
  - split; [|split; [easy|]].
    + split; [|split; [|split]]; try easy. intros t [|i]; cbn; easy. intros [|i] p o; cbn; easy.
    + intros [|i] p; cbn; easy.
  - intros f [<-|[<-|[]]]; cbn; lia.
Qed.

(* The same form may be given more than once in a declaration; this is not reported. *)
Example same_form_twice_ex :
  let s := Spec [] [] [Oform false [45; 120]; Oform false [45; 120]] 0 [] [] [] [] in
  match add_option s (0, 2) (Argspec false false) 0 (Action false false) with POk s => k_short_map s = [(120, 0)] | _ => False end.
Proof. now vm_compute. Qed.
