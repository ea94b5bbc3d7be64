(* Lemmas about the model of random seeds. *)
From Coq Require Import ZArith Bool List Lia ZifyBool.
From Verif Require Import CInt IntModel IntSpec IntProofs3 IntProps RandomSeedModel RandomSeedSpec ArrLib.
Import ListNotations.
Open Scope Z_scope.

Ltac split_range c := 
  repeat match goal with
  | H : ?a <= c <= ?b |- _ =>
    let a' := eval cbv in (a + 1) in
    destruct (Z.eq_dec c a) as [->|];
    [clear H | tryif (assert (b < a') by lia) then (exfalso; lia) else (assert (a' <= c <= b) by lia; clear H)]
  end.

Lemma map_digit_ok c d : map_digit c = Some d <-> base62_digit c d.
Proof.
  split.
  - unfold map_digit. destruct (find (fun p => fst p =? c) map_digit_cases) as [[c' d']|] eqn:E; [|discriminate].
    intros [= <-]. apply find_some in E. cbn [fst snd] in *. destruct E as (E & Ec). apply Z.eqb_eq in Ec. subst c'.
    assert (K : Forall (fun p => base62_digit (fst p) (snd p)) map_digit_cases).
    { unfold map_digit_cases, base62_digit. repeat (constructor; [cbn; lia|]). constructor. }
    rewrite Forall_forall in K. exact (K _ E).
  - intros [(H & ->)|[(H & ->)|(H & ->)]]; split_range c; try reflexivity; lia.
Qed.

Lemma base62_char_ok d : 0 <= d < 62 -> exists c, nth_error base62_chars (Z.to_nat d) = Some c /\ base62_digit c d.
Proof.
  intros H. assert (K : forallb (fun n => match nth_error base62_chars n with
      | Some c => match map_digit c with Some e => e =? Z.of_nat n | None => false end | None => false end) (seq 0 62) = true) by reflexivity.
  rewrite forallb_forall in K. specialize (K (Z.to_nat d) ltac:(apply in_seq; lia)).
  destruct (nth_error base62_chars (Z.to_nat d)) as [c|]; [|discriminate]. exists c. split; [reflexivity|].
  destruct (map_digit c) as [e|] eqn:E; [|discriminate]. apply map_digit_ok. rewrite E. f_equal. lia.
Qed.

Lemma encode_loop_ok n : forall v acc, 0 <= v < 62 ^ Z.of_nat n ->
  exists cs, encode_loop n v acc = Some (cs ++ acc) /\ length cs = n /\ base62 cs v.
Proof.
  induction n as [|n IH]; intros v acc Hv.
  - exists []. cbn in *. assert (v = 0) by lia. subst. repeat split. constructor.
  - cbn [encode_loop]. rewrite Nat2Z.inj_succ, Z.pow_succ_r in Hv by lia.
    destruct (base62_char_ok (v mod 62) (Z.mod_pos_bound v 62 ltac:(lia))) as (c & Ec & Hc). rewrite Ec. cbn [obind].
    destruct (IH (v / 62) (c :: acc)) as (cs & E & L & B).
    { split; [apply Z.div_pos; lia|]. apply Z.div_lt_upper_bound; lia. }
    exists (cs ++ [c]). rewrite E, <- app_assoc. cbn [app]. split; [reflexivity|]. split; [rewrite app_length; cbn; lia|].
    replace v with (v / 62 * 62 + v mod 62) at 1 by (pose proof (Z.div_mod v 62); lia). now constructor.
Qed.

(* value of a numeral as a function *)
Fixpoint val62 (cs : list Z) (v : Z) : option Z :=
  match cs with
  | [] => Some v
  | c :: cs => match map_digit c with Some d => val62 cs (v * 62 + d) | None => None end
  end.

Lemma val62_snoc cs c : forall v, val62 (cs ++ [c]) v =
  match val62 cs v with Some x => match map_digit c with Some d => Some (x * 62 + d) | None => None end | None => None end.
Proof.
  induction cs as [|c' cs IH]; intros v; cbn; [now destruct (map_digit c)|]. destruct (map_digit c'); [apply IH|reflexivity].
Qed.

Lemma val62_ok cs : forall x, base62 cs x <-> val62 cs 0 = Some x.
Proof.
  induction cs as [|c cs IH] using rev_ind; intros x.
  - split; [intros H; inversion H as [|cs' ? ? ? ? ? E]; [reflexivity|destruct cs'; discriminate]|]. intros [= <-]. constructor.
  - rewrite val62_snoc. split.
    + intros H. inversion H as [E|cs' v c' d B D E Ev]; [destruct cs; discriminate|]. apply app_inj_tail in E. destruct E as (-> & ->).
      apply IH in B. rewrite B. apply map_digit_ok in D. now rewrite D.
    + destruct (val62 cs 0) as [v|] eqn:E; [|discriminate]. destruct (map_digit c) as [d|] eqn:D; [|discriminate].
      intros [= <-]. constructor; [now apply IH|now apply map_digit_ok].
Qed.

Lemma digit_range c d : map_digit c = Some d -> 0 <= d < 62.
Proof. intros H. apply map_digit_ok in H. unfold base62_digit in H. lia. Qed.

Lemma val62_ge cs : forall v x, 0 <= v -> val62 cs v = Some x -> v <= x.
Proof.
  induction cs as [|c cs IH]; intros v x Hv; cbn; [intros [= <-]; lia|]. destruct (map_digit c) as [d|] eqn:E; [|discriminate].
  intros H. apply digit_range in E. apply IH in H; lia.
Qed.

Section S.
Context (fw vw : Z) (Hfw : 64 <= fw) (Hvw : 32 <= vw).

Lemma pow_fw : 2 ^ 64 <= 2 ^ fw.
Proof. apply Z.pow_le_mono_r; lia. Qed.

Lemma uint64_ok : ity_ok (uint64 fw).
Proof. unfold ity_ok, uint64. cbn. lia. Qed.

Lemma rep_uint64 v : representable (uint64 fw) v <-> 0 <= v < 2 ^ fw.
Proof. reflexivity. Qed.

Lemma rep_int v : 0 <= v <= 100 -> representable t_int v.
Proof. intros. unfold representable. cbn. lia. Qed.

Lemma parse_digits_ok cs : forall v, 0 <= v < 2 ^ fw ->
  parse_digits fw cs v = Some (match val62 cs v with Some x => if x <? 2 ^ fw then Some x else None | None => None end).
Proof.
  induction cs as [|c cs IH]; intros v Hv; cbn [parse_digits val62].
  - replace (v <? 2 ^ fw) with true by lia. reflexivity.
  - destruct (map_digit c) as [d|] eqn:E; [|reflexivity]. apply digit_range in E.
    assert (Big : 2 ^ fw <= v * 62 + d -> match val62 cs (v * 62 + d) with Some x => if x <? 2 ^ fw then Some x else None | None => None end = None).
    { intros H. destruct (val62 cs (v * 62 + d)) as [x|] eqn:Ev; [|reflexivity]. apply val62_ge in Ev; [|lia]. now replace (x <? 2 ^ fw) with false by lia. }
    destruct (checked_mul_exact (uint64 fw) t_int v 62 uint64_ok ltac:(unfold ity_ok; cbn; lia) Hv ltac:(apply rep_int; lia)) as [(R & ->)|(R & ->)]; cbn [obind].
    + destruct (checked_add_exact (uint64 fw) t_int (v * 62) d uint64_ok ltac:(unfold ity_ok; cbn; lia) R ltac:(apply rep_int; lia)) as [(R2 & ->)|(R2 & ->)]; cbn [obind].
      * now apply IH.
      * rewrite rep_uint64 in R2, R. rewrite Big by lia. reflexivity.
    + rewrite rep_uint64 in R. rewrite Big by lia. reflexivity.
Qed.

Lemma pair_split w1 w2 : word w1 -> word w2 -> pair_value w1 w2 mod 2 ^ 32 = w1 /\ pair_value w1 w2 / 2 ^ 32 = w2 /\ 0 <= pair_value w1 w2 < 2 ^ 64.
Proof.
  unfold word, pair_value. intros H1 H2. change (2 ^ 32) with 4294967296 in *. change (2 ^ 64) with 18446744073709551616.
  repeat split.
  - symmetry. apply Z.mod_unique with w2; lia.
  - symmetry. apply Z.div_unique with w1; lia.
  - lia.
  - lia.
Qed.

Lemma parse_subblock_ok cs : length cs = 11%nat ->
  exists o, parse_subblock fw vw cs = Some o /\
    forall ws, o = Some ws <-> exists w1 w2, ws = [w1; w2] /\ pair_text w1 w2 cs /\ ~ (w1 = 2 ^ 32 - 1 /\ w2 = 2 ^ 32 - 1).
Proof.
  intros L. pose proof pow_fw. unfold parse_subblock. rewrite parse_digits_ok by lia. cbn [obind].
  rewrite int_mask_spec by (try apply uint64_ok; unfold nvb, uint64; cbn; lia).
  rewrite int_mask_spec by (unfold ity_ok, nvb, value_type; cbn; lia). cbn [obind].
  destruct (val62 cs 0) as [x|] eqn:Ev.
  2: { eexists. split; [reflexivity|]. intros ws. split; [discriminate|]. intros (w1 & w2 & _ & (_ & B & _) & _). apply val62_ok in B. congruence. }
  assert (Hx : 0 <= x) by (apply val62_ge in Ev; lia).
  assert (Uniq : forall w1 w2, pair_text w1 w2 cs -> x = pair_value w1 w2).
  { intros w1 w2 (_ & B & _). apply val62_ok in B. congruence. }
  destruct (Z.ltb_spec x (2 ^ fw)) as [Hl|Hl].
  2: { eexists. split; [reflexivity|]. intros ws. split; [discriminate|]. intros (w1 & w2 & _ & P & _). specialize (Uniq _ _ P).
       destruct P as (_ & _ & P1 & P2). destruct (pair_split w1 w2 P1 P2) as (_ & _ & Q). lia. }
  destruct (Z.geb_spec x (2 ^ 64 - 1)) as [Hg|Hg].
  - eexists. split; [reflexivity|]. intros ws. split; [discriminate|]. intros (w1 & w2 & _ & P & N). specialize (Uniq _ _ P).
    destruct P as (_ & _ & P1 & P2). exfalso. apply N. unfold pair_value, word in *. lia.
  - eexists. split; [reflexivity|]. replace (2 ^ 32 - 1) with (Z.ones 32) by reflexivity.
    rewrite !Z.land_ones by lia. rewrite Z.shiftr_div_pow2 by lia.
    assert (Hq : 0 <= x / 2 ^ 32 < 2 ^ 32) by (split; [apply Z.div_pos; lia|apply Z.div_lt_upper_bound; lia]).
    rewrite (Z.mod_small (x / 2 ^ 32)) by assumption.
    pose proof (Z.mod_pos_bound x (2 ^ 32) ltac:(lia)) as Hm.
    pose proof (Z.pow_le_mono_r 2 32 vw ltac:(lia) ltac:(lia)).
    rewrite !wrap_id by (unfold ity_ok, in_range, imin, imax, value_type; cbn [isigned iwidth]; lia).
    intros ws. split.
    + intros [= <-]. exists (x mod 2 ^ 32), (x / 2 ^ 32). split; [reflexivity|]. pose proof (Z.div_mod x (2 ^ 32)) as D.
      split; [|change (Z.ones 32) with (2 ^ 32 - 1); lia]. split; [assumption|]. split; [|split; assumption]. apply val62_ok. rewrite Ev. f_equal. unfold pair_value. lia.
    + intros (w1 & w2 & -> & P & _). specialize (Uniq _ _ P). destruct P as (_ & _ & P1 & P2).
      destruct (pair_split w1 w2 P1 P2) as (Q1 & Q2 & _). subst x. rewrite Q1, Q2. reflexivity.
Qed.

Lemma parse_block_ok block : length block = 33%nat ->
  exists o, parse_block fw vw block = Some o /\ forall ws, o = Some ws <-> block_text ws block /\ no_all_ones ws.
Proof.
  intros L.
  set (a := firstn 11 block). set (b := firstn 11 (skipn 11 block)). set (c := firstn 11 (skipn 22 block)).
  assert (Ec : skipn 22 block = c).
  { subst c. symmetry. apply firstn_all2. rewrite skipn_length. lia. }
  assert (Eb : skipn 11 block = b ++ c).
  { rewrite <- Ec. subst b. rewrite <- (firstn_skipn 11 (skipn 11 block)) at 1. f_equal.
    rewrite <- (firstn_skipn 11 block) at 2. rewrite <- (firstn_skipn 11 block) at 1.
    assert (length (firstn 11 block) = 11%nat) by (rewrite firstn_length; lia).
    rewrite !skipn_app. rewrite !H. rewrite (skipn_all2 (firstn 11 block)) by lia. rewrite (skipn_all2 (n := 22) (firstn 11 block)) by lia.
    reflexivity. }
  assert (E : block = a ++ b ++ c).
  { rewrite <- Eb. symmetry. apply firstn_skipn. }
  assert (La : length a = 11%nat) by (subst a; rewrite firstn_length; lia).
  assert (Lb : length b = 11%nat) by (subst b; rewrite firstn_length, skipn_length; lia).
  assert (Lc : length c = 11%nat) by (subst c; rewrite firstn_length, skipn_length; lia).
  assert (Split : forall ws, block_text ws block /\ no_all_ones ws -> exists w1 w2 w3 w4 w5 w6, ws = [w1; w2; w3; w4; w5; w6] /\
     (pair_text w1 w2 a /\ ~ (w1 = 2 ^ 32 - 1 /\ w2 = 2 ^ 32 - 1)) /\ (pair_text w3 w4 b /\ ~ (w3 = 2 ^ 32 - 1 /\ w4 = 2 ^ 32 - 1)) /\
     (pair_text w5 w6 c /\ ~ (w5 = 2 ^ 32 - 1 /\ w6 = 2 ^ 32 - 1))).
  { intros ws ((w1 & w2 & w3 & w4 & w5 & w6 & a' & b' & c' & -> & E' & Pa & Pb & Pc) & N). rewrite E in E'.
    assert (Inj : forall (x y x' y' : list Z), length x = length x' -> x ++ y = x' ++ y' -> x = x' /\ y = y').
    { clear. induction x as [|e x IH]; intros y [|f x'] y' L E; try discriminate; [auto|]. cbn in *. injection E as -> E.
      destruct (IH y x' y' ltac:(lia) E). subst. auto. }
    destruct Pa as (Pa & ?), Pb as (Pb & ?), Pc as (Pc & ?).
    apply Inj in E'; [|congruence]. destruct E' as (<- & E'). apply Inj in E'; [|congruence]. destruct E' as (<- & <-).
    cbn in N. exists w1, w2, w3, w4, w5, w6. split; [reflexivity|]. unfold pair_text. tauto. }
  unfold parse_block. fold a b c.
  destruct (parse_subblock_ok a La) as (o0 & -> & H0). cbn [obind].
  destruct o0 as [ws0|].
  2: { eexists. split; [reflexivity|]. intros ws. split; [discriminate|]. intros H. destruct (Split ws H) as (w1 & w2 & w3 & w4 & w5 & w6 & _ & Q & _).
       assert (X : None = Some [w1; w2]) by (apply H0; eauto). discriminate. }
  destruct (parse_subblock_ok b Lb) as (o1 & -> & H1). cbn [obind].
  destruct o1 as [ws1|].
  2: { eexists. split; [reflexivity|]. intros ws. split; [discriminate|]. intros H. destruct (Split ws H) as (w1 & w2 & w3 & w4 & w5 & w6 & _ & _ & Q & _).
       assert (X : None = Some [w3; w4]) by (apply H1; eauto). discriminate. }
  destruct (parse_subblock_ok c Lc) as (o2 & -> & H2). cbn [obind].
  destruct o2 as [ws2|].
  2: { eexists. split; [reflexivity|]. intros ws. split; [discriminate|]. intros H. destruct (Split ws H) as (w1 & w2 & w3 & w4 & w5 & w6 & _ & _ & _ & Q).
       assert (X : None = Some [w5; w6]) by (apply H2; eauto). discriminate. }
  eexists. split; [reflexivity|]. intros ws. split.
  - intros [= <-]. destruct (proj1 (H0 ws0) eq_refl) as (w1 & w2 & -> & P0 & N0). destruct (proj1 (H1 ws1) eq_refl) as (w3 & w4 & -> & P1 & N1).
    destruct (proj1 (H2 ws2) eq_refl) as (w5 & w6 & -> & P2 & N2). split.
    + exists w1, w2, w3, w4, w5, w6, a, b, c. auto 10.
    + cbn. tauto.
  - intros H. destruct (Split ws H) as (w1 & w2 & w3 & w4 & w5 & w6 & -> & Q0 & Q1 & Q2).
    assert (E0 : Some ws0 = Some [w1; w2]) by (apply H0; eauto). assert (E1 : Some ws1 = Some [w3; w4]) by (apply H1; eauto).
    assert (E2 : Some ws2 = Some [w5; w6]) by (apply H2; eauto). injection E0 as ->. injection E1 as ->. injection E2 as ->. reflexivity.
Qed.

Lemma block_text_len ws cs : block_text ws cs -> length cs = 33%nat /\ length ws = 6%nat.
Proof.
  intros (w1 & w2 & w3 & w4 & w5 & w6 & a & b & c & -> & -> & (La & _) & (Lb & _) & (Lc & _)). rewrite !app_length. cbn. lia.
Qed.

Section Chars.
Context {C : Type} (ceqb : C -> C -> bool) (ceqb_ok : forall a b, ceqb a b = true <-> a = b).
Context (widen : Z -> C) (narrow : C -> Z) (is_alnum : C -> bool) (Hdash : is_alnum (widen 45) = false).

Notation dash := (widen 45).
Notation acc := (accepted_block narrow is_alnum).

Lemma end_block_ok pre : Forall (fun c => is_alnum c = true) pre ->
  exists o, end_block fw vw (firstn 33 (map narrow pre)) = Some o /\ forall ws, o = Some ws <-> acc ws pre.
Proof.
  intros Hp. unfold end_block. destruct (Nat.eqb_spec (length (firstn 33 (map narrow pre))) 33) as [L|L].
  - destruct (parse_block_ok _ L) as (o & E & H). exists o. split; [assumption|]. intros ws. rewrite H. unfold accepted_block. split.
    + intros (B & N). split; [assumption|]. eauto.
    + intros (_ & cs & <- & B & N). auto.
  - exists None. split; [reflexivity|]. intros ws. split; [discriminate|]. intros (_ & cs & <- & B & _). apply block_text_len in B. lia.
Qed.

Lemma acc_nonempty ws b : acc ws b -> b <> [].
Proof. intros (_ & cs & <- & B & _) ->. apply block_text_len in B. cbn in B. lia. Qed.

Lemma acc_len ws b : acc ws b -> length ws = 6%nat.
Proof. intros (_ & cs & <- & B & _). now apply block_text_len in B. Qed.

Lemma make_seed_id k (ws : list Z) : length ws = (k * 6)%nat -> make_seed ws = ws.
Proof.
  intros L. unfold make_seed. rewrite L, Nat.div_mul by lia. apply firstn_all2. lia.
Qed.

(* what follows a block *)
Definition follow (blocks : list (list C)) (tail : list C) : list C :=
  match blocks with [] => tail | _ => dash :: dashed dash blocks ++ tail end.

Lemma dashed_cons b blocks tail : dashed dash (b :: blocks) ++ tail = b ++ follow blocks tail.
Proof.
  destruct blocks as [|b2 blocks]; [reflexivity|].
  change (dashed dash (b :: b2 :: blocks)) with (b ++ dash :: dashed dash (b2 :: blocks)). rewrite <- app_assoc. reflexivity.
Qed.

Lemma follow_head blocks tail : ended is_alnum dash tail -> match follow blocks tail with [] => True | c :: _ => is_alnum c = false end.
Proof. intros H. destruct blocks; cbn; [|assumption]. destruct tail; [exact I|]. now destruct H. Qed.

Lemma span_uniq (a b x y : list C) : Forall (fun c => is_alnum c = true) a -> Forall (fun c => is_alnum c = true) b ->
  match x with [] => True | c :: _ => is_alnum c = false end -> match y with [] => True | c :: _ => is_alnum c = false end ->
  a ++ x = b ++ y -> a = b /\ x = y.
Proof.
  intros Ha. revert b. induction Ha as [|c a Hc Ha IH]; intros b Hb Hx Hy E.
  - destruct b as [|e b]; [auto|]. inversion Hb; subst. cbn in E. subst x. cbn in Hx. congruence.
  - destruct b as [|e b]; [cbn in E; subst y; cbn in Hy; congruence|]. inversion Hb; subst. cbn in E. injection E as -> E.
    destruct (IH b H2 Hx Hy E). subst. auto.
Qed.

Lemma read_blocks_ok rest : forall ch pre words k, Forall (fun c => is_alnum c = true) pre -> length words = (k * 6)%nat ->
  exists r, read_blocks fw vw ceqb widen narrow is_alnum ch rest (firstn 33 (map narrow pre)) words = Some r /\
  (rr_eof r = true <-> rr_rest r = []) /\
  forall ws tail, (rr_seed r = Some ws /\ rr_rest r = tail) <->
    exists wss b blocks, pre ++ ch :: rest = dashed dash (b :: blocks) ++ tail /\ ended is_alnum dash tail /\ Forall2 acc wss (b :: blocks) /\
      ws = words ++ concat wss.
Proof.
  induction rest as [|c' rest IH]; intros ch pre words k Hp Hw; cbn [read_blocks]; destruct (is_alnum ch) eqn:Ha.
  - (* end of input within a block *)
    replace (if (length (firstn 33 (map narrow pre)) <? 33)%nat then firstn 33 (map narrow pre) ++ [narrow ch] else firstn 33 (map narrow pre))
      with (firstn 33 (map narrow (pre ++ [ch]))).
    2: { rewrite map_app, firstn_app, firstn_length, map_length. destruct (Nat.ltb_spec (Nat.min 33 (length pre)) 33).
         - f_equal. destruct (33 - length pre)%nat as [|n] eqn:E; [lia|]. cbn. now rewrite firstn_nil.
         - replace (33 - length pre)%nat with 0%nat by lia. cbn [firstn]. apply app_nil_r. }
    assert (Hp2 : Forall (fun c => is_alnum c = true) (pre ++ [ch])) by (apply Forall_app; split; auto).
    destruct (end_block_ok (pre ++ [ch]) Hp2) as (o & -> & Ho). cbn [obind].
    assert (Form : forall wss b blocks tail, pre ++ [ch] = dashed dash (b :: blocks) ++ tail -> ended is_alnum dash tail -> Forall2 acc wss (b :: blocks) ->
       b = pre ++ [ch] /\ blocks = [] /\ tail = []).
    { intros wss b blocks tail E He F. rewrite dashed_cons in E. rewrite <- (app_nil_r (pre ++ [ch])) in E. inversion F as [|? ? ? ? Hb]; subst.
      apply span_uniq in E; [|assumption|apply Hb|exact I|now apply follow_head]. destruct E as (-> & E). destruct blocks; [|discriminate]. auto. }
    destruct o as [more|].
    + eexists. split; [reflexivity|]. cbn [rr_seed rr_rest rr_eof]. split; [tauto|]. intros ws tail. pose proof (proj1 (Ho more) eq_refl) as Hm. split.
      * intros ([= <-] & <-). exists [more], (pre ++ [ch]), []. split; [cbn; now rewrite app_nil_r|]. split; [exact I|]. split; [constructor; [assumption|constructor]|].
        cbn [concat]. rewrite app_nil_r. apply make_seed_id with (S k). rewrite app_length, Hw, (acc_len _ _ Hm). lia.
      * intros (wss & b & blocks & E & He & F & ->). destruct (Form _ _ _ _ E He F) as (-> & -> & ->). inversion F as [|w ? wss' ? Hb F2]; subst.
        inversion F2; subst. apply Ho in Hb. injection Hb as ->. split; [|reflexivity]. cbn [concat]. rewrite app_nil_r. f_equal.
        apply make_seed_id with (S k). rewrite app_length, Hw, (acc_len _ _ Hm). lia.
    + eexists. split; [reflexivity|]. cbn [rr_seed rr_rest rr_eof]. split; [tauto|]. intros ws tail. split; [intros (? & _); discriminate|].
      intros (wss & b & blocks & E & He & F & ->). destruct (Form _ _ _ _ E He F) as (-> & -> & ->). inversion F as [|w ? wss' ? Hb F2]; subst.
      apply Ho in Hb. discriminate.
  - (* block ended by the last character *)
    destruct (end_block_ok pre Hp) as (o & -> & Ho). cbn [obind].
    assert (Form : forall wss b blocks tail, pre ++ [ch] = dashed dash (b :: blocks) ++ tail -> ended is_alnum dash tail -> Forall2 acc wss (b :: blocks) ->
       b = pre /\ blocks = [] /\ tail = [ch] /\ ch <> dash).
    { intros wss b blocks tail E He F. rewrite dashed_cons in E. inversion F as [|? ? ? ? Hb F2]; subst.
      apply span_uniq in E; [|assumption|apply Hb|exact Ha|now apply follow_head]. destruct E as (-> & E). destruct blocks as [|b2 blocks]; cbn [follow] in E.
      - subst tail. destruct He. auto.
      - exfalso. assert (E3 : [] = dashed dash (b2 :: blocks) ++ tail) by congruence. clear E. rename E3 into E. rewrite dashed_cons in E. inversion F2 as [|? ? ? ? Hb2]; subst. apply acc_nonempty in Hb2. destruct b2; [congruence|discriminate]. }
    destruct o as [more|].
    + pose proof (proj1 (Ho more) eq_refl) as Hm. destruct (ceqb ch (sep widen)) eqn:Ed.
      * apply ceqb_ok in Ed. eexists. split; [reflexivity|]. cbn [rr_seed rr_rest rr_eof]. split; [tauto|]. intros ws tail. split; [intros (? & _); discriminate|].
        intros (wss & b & blocks & E & He & F & ->). destruct (Form _ _ _ _ E He F) as (_ & _ & _ & N). contradiction.
      * cbn [negb]. assert (N : ch <> dash) by (intros N; apply ceqb_ok in N; unfold sep in Ed; congruence).
        eexists. split; [reflexivity|]. cbn [rr_seed rr_rest rr_eof]. split; [split; discriminate|]. intros ws tail. split.
        -- intros ([= <-] & <-). exists [more], pre, []. split; [reflexivity|]. split; [split; assumption|]. split; [constructor; [assumption|constructor]|].
           cbn [concat]. rewrite app_nil_r. apply make_seed_id with (S k). rewrite app_length, Hw, (acc_len _ _ Hm). lia.
        -- intros (wss & b & blocks & E & He & F & ->). destruct (Form _ _ _ _ E He F) as (-> & -> & -> & _). inversion F as [|w ? wss' ? Hb F2]; subst.
           inversion F2; subst. apply Ho in Hb. injection Hb as ->. split; [|reflexivity]. cbn [concat]. rewrite app_nil_r. f_equal.
           apply make_seed_id with (S k). rewrite app_length, Hw, (acc_len _ _ Hm). lia.
    + eexists. split; [reflexivity|]. cbn [rr_seed rr_rest rr_eof]. split; [split; discriminate|]. intros ws tail. split; [intros (? & _); discriminate|].
      intros (wss & b & blocks & E & He & F & ->). destruct (Form _ _ _ _ E He F) as (-> & -> & -> & _). inversion F as [|w ? wss' ? Hb F2]; subst.
      apply Ho in Hb. discriminate.
  - (* within a block *)
    replace (if (length (firstn 33 (map narrow pre)) <? 33)%nat then firstn 33 (map narrow pre) ++ [narrow ch] else firstn 33 (map narrow pre))
      with (firstn 33 (map narrow (pre ++ [ch]))).
    2: { rewrite map_app, firstn_app, firstn_length, map_length. destruct (Nat.ltb_spec (Nat.min 33 (length pre)) 33).
         - f_equal. destruct (33 - length pre)%nat as [|n] eqn:E; [lia|]. cbn. now rewrite firstn_nil.
         - replace (33 - length pre)%nat with 0%nat by lia. cbn [firstn]. apply app_nil_r. }
    assert (Hp2 : Forall (fun c => is_alnum c = true) (pre ++ [ch])) by (apply Forall_app; split; auto).
    destruct (IH c' (pre ++ [ch]) words k Hp2 Hw) as (r & E & He & Hr). exists r. split; [exact E|]. split; [assumption|].
    rewrite <- app_assoc in Hr. exact Hr.
  - (* end of a block *)
    destruct (end_block_ok pre Hp) as (o & -> & Ho). cbn [obind].
    assert (Form : forall wss b blocks tail, pre ++ ch :: c' :: rest = dashed dash (b :: blocks) ++ tail -> ended is_alnum dash tail -> Forall2 acc wss (b :: blocks) ->
       b = pre /\ ch :: c' :: rest = follow blocks tail).
    { intros wss b blocks tail E He F. rewrite dashed_cons in E. inversion F as [|? ? ? ? Hb F2]; subst.
      apply span_uniq in E; [|assumption|apply Hb|exact Ha|now apply follow_head]. destruct E as (-> & E). auto. }
    destruct o as [more|].
    + pose proof (proj1 (Ho more) eq_refl) as Hm. assert (Lm : length (words ++ more) = (S k * 6)%nat) by (rewrite app_length, Hw, (acc_len _ _ Hm); lia).
      destruct (ceqb ch (sep widen)) eqn:Ed.
      * apply ceqb_ok in Ed. cbn [negb]. subst ch.
        destruct (IH c' [] (words ++ more) (S k) ltac:(constructor) Lm) as (r & E & He & Hr). exists r. split; [exact E|]. split; [assumption|].
        intros ws tail. rewrite Hr. split.
        -- intros (wss & b & blocks & E2 & He2 & F & ->). exists (more :: wss), pre, (b :: blocks). split; [|split; [assumption|split; [now constructor|cbn [concat]; now rewrite app_assoc]]].
           rewrite dashed_cons. cbn [follow]. rewrite <- E2. reflexivity.
        -- intros (wss & b & blocks & E2 & He2 & F & ->). destruct (Form _ _ _ _ E2 He2 F) as (-> & E3). inversion F as [|w ? wss' ? Hb F2]; subst.
           apply Ho in Hb. injection Hb as ->. destruct blocks as [|b2 blocks]; cbn [follow] in E3.
           ++ subst tail. destruct He2 as (_ & N). exfalso. apply N. reflexivity.
           ++ exists wss', b2, blocks. injection E3 as E3. split; [exact E3|]. split; [assumption|]. split; [assumption|]. cbn [concat]. now rewrite app_assoc.
      * cbn [negb]. assert (N : ch <> dash) by (intros N; apply ceqb_ok in N; unfold sep in Ed; congruence).
        eexists. split; [reflexivity|]. cbn [rr_seed rr_rest rr_eof]. split; [split; discriminate|]. intros ws tail. split.
        -- intros ([= <-] & <-). exists [more], pre, []. split; [reflexivity|]. split; [split; assumption|]. split; [constructor; [assumption|constructor]|].
           cbn [concat]. rewrite app_nil_r. now apply make_seed_id with (S k).
        -- intros (wss & b & blocks & E & He & F & ->). destruct (Form _ _ _ _ E He F) as (-> & E3). inversion F as [|w ? wss' ? Hb F2]; subst.
           destruct blocks as [|b2 blocks]; cbn [follow] in E3; [|injection E3 as E3 _; contradiction].
           inversion F2; subst. apply Ho in Hb. injection Hb as ->. split; [|reflexivity]. cbn [concat]. rewrite app_nil_r. f_equal.
           now apply make_seed_id with (S k).
    + eexists. split; [reflexivity|]. cbn [rr_seed rr_rest rr_eof]. split; [split; discriminate|]. intros ws tail. split; [intros (? & _); discriminate|].
      intros (wss & b & blocks & E & He & F & ->). destruct (Form _ _ _ _ E He F) as (-> & _). inversion F as [|w ? wss' ? Hb F2]; subst.
      apply Ho in Hb. discriminate.
Qed.

End Chars.

Lemma encode_subblock_ok seed i w1 w2 : nth_error seed i = Some w1 -> nth_error seed (i + 1) = Some w2 -> word w1 -> word w2 ->
  exists cs, encode_subblock fw seed i = Some cs /\ pair_text w1 w2 cs.
Proof.
  intros E1 E2 H1 H2. unfold encode_subblock. rewrite Nat.add_0_r, E1. cbn [obind]. rewrite E2. cbn [obind].
  pose proof pow_fw. change (2 ^ 64) with (2 ^ 32 * 2 ^ 32) in *. unfold word in *.
  rewrite !(wrap_id (uint64 fw) w1), !(wrap_id (uint64 fw) w2) by (try apply uint64_ok; unfold in_range, imin, imax, uint64; cbn [isigned iwidth]; lia).
  change (0 * 32) with 0. change (1 * 32) with 32. rewrite Z.shiftl_0_r. rewrite Z.shiftl_mul_pow2 by lia.
  rewrite !wrap_id by (try apply uint64_ok; unfold in_range, imin, imax, uint64; cbn [isigned iwidth]; lia).
  rewrite Z.lor_0_l.
  assert (L : Z.lor w1 (w2 * 2 ^ 32) = pair_value w1 w2).
  { unfold pair_value. assert (K : Z.land w1 (w2 * 2 ^ 32) = 0); [|rewrite <- Z.lxor_lor, <- Z.add_nocarry_lxor by assumption; lia].
    apply Z.bits_inj'. intros n Hn. rewrite Z.land_spec, Z.bits_0, Z.mul_pow2_bits by lia.
    destruct (Z.ltb_spec n 32).
    - rewrite (Z.testbit_neg_r w2) by lia. apply andb_false_r.
    - replace (Z.testbit w1 n) with false; [reflexivity|]. symmetry. destruct (Z.eq_dec w1 0) as [->|]; [apply Z.bits_0|].
      apply Z.bits_above_log2; [lia|]. assert (Z.log2 w1 < 32) by (apply Z.log2_lt_pow2; lia). lia. }
  rewrite L. destruct (encode_loop_ok 11 (pair_value w1 w2) []) as (cs & E & Lc & B).
  { unfold pair_value. change (62 ^ Z.of_nat 11) with 52036560683837093888. lia. }
  exists cs. rewrite E, app_nil_r. unfold pair_text, word. auto.
Qed.

Lemma format_block_ok seed off ws rest : skipn off seed = ws ++ rest -> length ws = 6%nat -> Forall word ws ->
  exists cs, format_block fw seed off = Some cs /\ block_text ws cs.
Proof.
  intros E L F. destruct ws as [|w1 [|w2 [|w3 [|w4 [|w5 [|w6 [|]]]]]]]; try discriminate.
  assert (N : forall i w, nth_error [w1; w2; w3; w4; w5; w6] i = Some w -> nth_error seed (off + i) = Some w).
  { intros i w H. rewrite <- (firstn_skipn off seed). assert (off <= length seed)%nat.
    { apply (f_equal (@length Z)) in E. rewrite skipn_length, app_length in E. cbn in E. lia. }
    rewrite nth_error_app2; rewrite firstn_length; [|lia]. replace (off + i - Nat.min off (length seed))%nat with i by lia. rewrite E.
    rewrite nth_error_app1; [assumption|]. apply nth_error_Some. congruence. }
  repeat match goal with H : Forall _ (_ :: _) |- _ => inversion H; subst; clear H end.
  unfold format_block.
  destruct (encode_subblock_ok seed (off + 0 * 2) w1 w2) as (a & -> & Pa); [now apply N|rewrite <- Nat.add_assoc; now apply N|assumption|assumption|].
  destruct (encode_subblock_ok seed (off + 1 * 2) w3 w4) as (b & -> & Pb); [now apply N|rewrite <- Nat.add_assoc; now apply N|assumption|assumption|].
  destruct (encode_subblock_ok seed (off + 2 * 2) w5 w6) as (c & -> & Pc); [now apply N|rewrite <- Nat.add_assoc; now apply N|assumption|assumption|].
  cbn [obind]. eexists. split; [reflexivity|]. exists w1, w2, w3, w4, w5, w6, a, b, c. auto.
Qed.

Lemma format_blocks_ok {C} (widen : Z -> C) seed n : forall i, length (skipn (i * 6) seed) = (S n * 6)%nat -> Forall word (skipn (i * 6) seed) ->
  exists wss blocks, format_blocks fw widen seed i n = Some (dashed (widen 45) (map (map widen) blocks)) /\ blocks <> [] /\
    Forall2 block_text wss blocks /\ concat wss = skipn (i * 6) seed.
Proof.
  induction n as [|n IH]; intros i L F; cbn [format_blocks].
  - destruct (format_block_ok seed (i * 6) (skipn (i * 6) seed) []) as (cs & -> & B); [now rewrite app_nil_r|lia|assumption|].
    cbn [obind]. exists [skipn (i * 6) seed], [cs]. split; [reflexivity|]. split; [discriminate|]. split; [constructor; [assumption|constructor]|]. apply app_nil_r.
  - set (s := skipn (i * 6) seed) in *.
    destruct (format_block_ok seed (i * 6) (firstn 6 s) (skipn 6 s)) as (cs & -> & B); [subst s; now rewrite firstn_skipn|rewrite firstn_length; lia| |].
    { apply Forall_forall. intros x Hx. rewrite Forall_forall in F. apply F. rewrite <- (firstn_skipn 6 s). apply in_or_app. auto. }
    cbn [obind]. assert (Es : skipn (S i * 6) seed = skipn 6 s).
    { subst s. replace (S i * 6)%nat with (i * 6 + 6)%nat by lia. clear. revert seed. induction (i * 6)%nat as [|m IH]; intros seed; [reflexivity|].
      destruct seed; [now rewrite !skipn_nil|]. cbn [skipn Nat.add]. apply IH. }
    destruct (IH (S i)) as (wss & blocks & -> & Nb & F2 & Ec).
    { rewrite Es, skipn_length. lia. }
    { rewrite Es. apply Forall_forall. intros x Hx. rewrite Forall_forall in F. apply F. rewrite <- (firstn_skipn 6 s). apply in_or_app. auto. }
    cbn [obind]. exists (firstn 6 s :: wss), (cs :: blocks). split; [|split; [discriminate|split; [now constructor|]]].
    + destruct blocks as [|b blocks]; [congruence|]. reflexivity.
    + cbn [concat]. rewrite Ec, Es. apply firstn_skipn.
Qed.

End S.
