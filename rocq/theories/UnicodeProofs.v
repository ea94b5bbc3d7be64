(* Lemmas about the conversion functions of unicode.hpp that do not depend on the
   particular encodings. *)
From Coq Require Import ZArith List Bool Arith Lia.
From Coq Require Import ZifyBool.
From Verif Require Import ArrLib BufferModel BufferProofs BufferProps UnicodeModel UnicodeSpec.
Import ListNotations.
Open Scope nat_scope.

Section Generic.
Context (valid : Z -> Prop) (src dst : Z -> list Z) (step : list Z -> nat -> action) (okunit : Z -> Prop).

Notation ok := (Forall okunit).
Notation tr f cps := (flat_map f cps).
Notation bad := (stuck valid src).

Definition good_step (t : list Z) : Prop :=
  exists c t', valid c /\ t = src c ++ t' /\
    forall room, step t room = if length (dst c) <=? room then Put (dst c) (length (src c)) else Full.
Definition stop_step (t : list Z) : Prop :=
  bad t /\ ((forall room, step t room = End) \/ t <> [] /\ (forall room, step t room = Bad)).

Context (Hstep : forall t, ok t -> good_step t \/ stop_step t)
        (Hpf : forall c c' t t', valid c -> valid c' -> src c ++ t = src c' ++ t' -> c = c' /\ t = t')
        (Hsrc : forall c, valid c -> 1 <= length (src c))
        (Hdst : forall c, valid c -> 1 <= length (dst c) <= 4)
        (Hmore : forall t q room, ok (t ++ q) -> step t room <> End -> step (t ++ q) room = step t room).

Lemma ok_app a b : ok (a ++ b) -> ok a /\ ok b.
Proof. apply Forall_app. Qed.

Lemma bad_nil : bad [].
Proof. intros c t Hc E. pose proof (Hsrc c Hc). destruct (src c); cbn in *; [lia|discriminate]. Qed.

(* Every input is a sequence of encoded code points followed by something where no
   encoded code point begins *)
Definition parse (s : list Z) (cps : list Z) (rest : list Z) : Prop :=
  s = tr src cps ++ rest /\ Forall valid cps /\ bad rest.

Lemma parse_unique s : forall cps rest cps' rest', parse s cps rest -> parse s cps' rest' -> cps = cps' /\ rest = rest'.
Proof.
  intros cps. revert s. induction cps as [|c cps IH]; intros s rest cps' rest' (E & V & B) (E' & V' & B').
  - destruct cps' as [|c' cps']; cbn in *; [split; congruence|].
    inversion V'; subst. rewrite <- app_assoc in B. exfalso. exact (B _ _ H1 eq_refl).
  - inversion V as [|? ? Vc V2]; subst. destruct cps' as [|c' cps']; cbn in *.
    + rewrite <- app_assoc in E'. subst rest'. exfalso. exact (B' _ _ Vc eq_refl).
    + inversion V' as [|? ? Vc' V2']; subst. rewrite <- !app_assoc in E'.
      destruct (Hpf _ _ _ _ Vc Vc' E') as [-> E2].
      destruct (IH (tr src cps ++ rest) rest cps' rest') as [-> ->]; [split; [|split]; auto..|].
      split; [easy|]. split; auto.
Qed.

Lemma parse_cons c s cps rest : valid c -> parse s cps rest -> parse (src c ++ s) (c :: cps) rest.
Proof. intros Hc (E & V & B). split; [|split; [now constructor|easy]]. cbn. now rewrite <- app_assoc, <- E. Qed.

Lemma parse_exists s : ok s -> exists cps rest, parse s cps rest.
Proof.
  remember (length s) as n eqn:En. revert s En. induction n as [n IH] using lt_wf_ind. intros s -> Hs.
  destruct (Hstep s Hs) as [(c & t & Hc & E & _)|[Hb _]].
  - assert (Ht : ok t). { rewrite E in Hs. now apply ok_app in Hs. }
    destruct (IH (length t)) with (s := t) as (cps & rest & P); [|easy|easy|].
    { rewrite E, app_length. pose proof (Hsrc c Hc). lia. }
    exists (c :: cps), rest. rewrite E. now apply parse_cons.
  - exists [], s. repeat split; [constructor|easy].
Qed.

(* What a call gives on a parsed input *)
Definition stopped (rest : list Z) (exhausted error : bool) : Prop :=
  exhausted = negb error /\ (rest = [] -> error = false) /\
  forall room, step rest room = if error then Bad else End.

Lemma stop_step_flags rest : stop_step rest -> exists ex er, stopped rest ex er.
Proof.
  intros [_ [H|[H1 H]]]; [exists true, false|exists false, true]; (split; [easy|split; [easy|]]); intros; apply H.
Qed.

Lemma run_parse fuel : forall s room cps rest, ok s -> parse s cps rest -> length s < fuel ->
  exists k ex er, run step fuel s room = Some (tr src (skipn k cps) ++ rest, tr dst (firstn k cps), ex, er) /\
    k <= length cps /\ length (tr dst (firstn k cps)) <= room /\
    (k < length cps -> ex = false /\ er = false /\ room < length (tr dst (firstn (S k) cps))) /\
    (k = length cps -> stopped rest ex er).
Proof.
  induction fuel as [|fuel IH]; intros s room cps rest Hs P Hf; [lia|]. cbn [run].
  destruct (Hstep s Hs) as [(c & t & Hc & E & Hst)|Hst].
  - assert (Ht : ok t). { rewrite E in Hs. now apply ok_app in Hs. }
    destruct (parse_exists t Ht) as (cps' & rest' & P').
    pose proof (parse_cons c t cps' rest' Hc P') as P2. rewrite <- E in P2.
    destruct (parse_unique _ _ _ _ _ P P2) as [-> ->]. rewrite Hst.
    pose proof (Hsrc c Hc). pose proof (Hdst c Hc).
    destruct (Nat.leb_spec (length (dst c)) room) as [Hr|Hr].
    + replace (length (dst c) <=? room) with true by lia.
      replace (length (src c) <=? length s) with true by (rewrite E, app_length; lia). cbn [andb].
      replace (skipn (length (src c)) s) with t
        by (rewrite E, skipn_app, Nat.sub_diag, skipn_all; reflexivity).
      destruct (IH t (room - length (dst c)) cps' rest' Ht P') as (k & ex & er & R & K1 & K2 & K3 & K4).
      { rewrite E, app_length in Hf. lia. }
      rewrite R. cbn [obind]. exists (S k), ex, er. split; [reflexivity|].
      cbn [length firstn flat_map]. rewrite app_length.
      split; [lia|]. split; [lia|]. split.
      * intros Hk. destruct (K3 ltac:(lia)) as (-> & -> & K). split; [easy|]. split; [easy|].
        cbn [flat_map] in *. destruct cps'; cbn [length] in *; [lia|]. cbn [firstn] in *. rewrite app_length. lia.
      * intros Hk. apply K4. lia.
    + exists 0, false, false. cbn [skipn firstn flat_map length].
      destruct P as [E1 _]. rewrite E1. split; [cbn; reflexivity|]. split; [lia|]. split; [lia|].
      split; [|lia]. intros _. rewrite app_nil_r. auto.
  - assert (P2 : parse s [] s). { split; [easy|]. split; [constructor|]. apply Hst. }
    destruct (parse_unique _ _ _ _ _ P P2) as [-> ->].
    destruct (stop_step_flags s Hst) as (ex & er & Hx). exists 0, ex, er.
    split.
    + destruct Hx as (-> & _ & Hx). rewrite Hx. cbn. now destruct er.
    + cbn. split; [lia|]. split; [lia|]. split; [lia|]. easy.
Qed.

Lemma flat_map_firstn {A B} (f : A -> list B) k l : tr f (firstn k l) ++ tr f (skipn k l) = tr f l.
Proof. now rewrite <- flat_map_app, firstn_skipn. Qed.

Lemma incr_parse inp out i o cps rest : ok inp -> i <= length inp -> o <= length out ->
  parse (skipn i inp) cps rest ->
  exists k ex er, incr step inp out i o =
      Some (firstn o out ++ tr dst (firstn k cps) ++ skipn (o + length (tr dst (firstn k cps))) out,
            i + length (tr src (firstn k cps)), o + length (tr dst (firstn k cps)), ex, er) /\
    k <= length cps /\ o + length (tr dst (firstn k cps)) <= length out /\
    skipn (i + length (tr src (firstn k cps))) inp = tr src (skipn k cps) ++ rest /\
    (k < length cps -> ex = false /\ er = false /\ length out < o + length (tr dst (firstn (S k) cps))) /\
    (k = length cps -> stopped rest ex er).
Proof.
  intros Hok Hi Ho P. unfold incr.
  replace (i <=? length inp) with true by lia. replace (o <=? length out) with true by lia. cbn [andb].
  destruct (run_parse (length inp + 1) (skipn i inp) (length out - o) cps rest) as (k & ex & er & R & K1 & K2 & K3 & K4).
  { rewrite <- (firstn_skipn i inp) in Hok. now apply ok_app in Hok. } { easy. } { rewrite skipn_length. lia. }
  rewrite R. cbn [obind]. exists k, ex, er.
  assert (E : skipn i inp = tr src (firstn k cps) ++ (tr src (skipn k cps) ++ rest)).
  { rewrite app_assoc, flat_map_firstn. apply P. }
  pose proof (f_equal (@length Z) E) as El. rewrite skipn_length, app_length in El.
  split.
  - do 5 f_equal. lia.
  - split; [easy|]. split; [lia|]. split.
    + assert (Es : forall a, skipn (i + a) inp = skipn a (skipn i inp)).
      { clear. revert inp. induction i; intros; [easy|]. destruct inp; cbn; [now rewrite skipn_nil|apply IHi]. }
      rewrite Es, E, skipn_app, Nat.sub_diag, skipn_all. easy.
    + split; [|easy]. intros Hk. destruct (K3 Hk) as (? & ? & ?). repeat split; try easy. lia.
Qed.

(* Strict conversion *)
Context (W : Z) (HW : (1 <= W)%Z).

Lemma expand_ok (mem : list Z) (o : nat) : o <= length mem -> (Z.of_nat (length mem) < 2 ^ W)%Z ->
  ((Z.of_nat (length mem) < 2 ^ W - 1)%Z -> exists mem',
     expand_a W 0%Z mem tt 1 (Z.of_nat o) (size_max W) = Done (mem', tt) /\ length mem < length mem' /\
     (Z.of_nat (length mem') < 2 ^ W)%Z /\ firstn o mem' = firstn o mem) /\
  ((Z.of_nat (length mem) = 2 ^ W - 1)%Z -> expand_a W 0%Z mem tt 1 (Z.of_nat o) (size_max W) = Throw (mem, tt)).
Proof.
  intros Ho Hm. pose proof (Z.pow_pos_nonneg 2 W ltac:(lia) ltac:(lia)) as HP.
  assert (HP2 : (2 <= 2 ^ W)%Z). { change 2%Z with (2 ^ 1)%Z at 1. apply Z.pow_le_mono_r; lia. }
  unfold expand_a, reserve_extra_a, bsize, do_reserve, size_max.
  rewrite Z.leb_refl. cbn [negb]. rewrite Z.sub_diag. rewrite (usize_id W 0) by (unfold size_max; lia).
  replace (1 <=? 0)%Z with false by lia.
  replace (Z.of_nat (length mem) <=? 2 ^ W - 1)%Z with true by lia.
  rewrite (usize_id W (2 ^ W - 1 - _)%Z) by (unfold size_max; lia). cbn [andb].
  split; intros Hc.
  - replace (1 <=? 2 ^ W - 1 - Z.of_nat (length mem))%Z with true by lia.
    rewrite usize_id by (unfold size_max; lia). unfold bsize.
    destruct (suggest_spec W (Z.of_nat (length mem)) (Z.of_nat (length mem) + 1) (2 ^ W - 1)) as (n & En & H1 & _ & _); [unfold size_max; lia..|].
    rewrite En. unfold copy_front. rewrite copy_n_front by (rewrite ?repeat_length; lia).
    eexists. split; [reflexivity|]. rewrite app_length, firstn_length, skipn_length, repeat_length.
    split; [lia|]. split; [lia|]. rewrite firstn_app, firstn_firstn, firstn_length, Nat.min_id.
    replace (o - Nat.min o (length mem)) with 0 by lia. cbn [firstn]. now rewrite app_nil_r.
  - replace (1 <=? 2 ^ W - 1 - Z.of_nat (length mem))%Z with false by lia. reflexivity.
Qed.

Lemma firstn_app_eq {A} n (a b : list A) : n = length a -> firstn n (a ++ b) = a.
Proof. intros ->. rewrite firstn_app, Nat.sub_diag, firstn_all. cbn. apply app_nil_r. Qed.

Lemma len_tr (f : Z -> list Z) k cps : length (tr f (firstn k cps)) + length (tr f (skipn k cps)) = length (tr f cps).
Proof. rewrite <- app_length. now rewrite <- flat_map_app, firstn_skipn. Qed.

Lemma Forall_firstn {A} (P : A -> Prop) k l : Forall P l -> Forall P (firstn k l).
Proof. intros H. rewrite <- (firstn_skipn k l) in H. now apply Forall_app in H. Qed.
Lemma Forall_skipn {A} (P : A -> Prop) k l : Forall P l -> Forall P (skipn k l).
Proof. intros H. rewrite <- (firstn_skipn k l) in H. now apply Forall_app in H. Qed.

Lemma len_tr_bound cps : Forall valid cps -> length (tr dst cps) <= 4 * length (tr src cps) /\ length cps <= length (tr dst cps).
Proof.
  induction 1 as [|c cps Hc _ IH]; [cbn; lia|]. cbn [flat_map length]. rewrite !app_length.
  pose proof (Hsrc c Hc). pose proof (Hdst c Hc). lia.
Qed.

Context (checked : bool) (Hchecked : checked = true -> forall t room, ok t -> step t room = End -> t = []).

Lemma conv_a_loop_ok fuel : forall s mem i o cps rest, ok s -> i <= length s -> o <= length mem ->
  (Z.of_nat (length mem) < 2 ^ W)%Z -> parse (skipn i s) cps rest ->
  4 * (length s - i) + 1 <= fuel + (length mem - o) -> 1 <= fuel ->
  ((Z.of_nat (o + length (tr dst cps)) < 2 ^ W)%Z ->
     exists mem', conv_a_loop step W checked fuel s (mem, i, o) =
         Done (mem', i + length (tr src cps), o + length (tr dst cps)) /\
       firstn (o + length (tr dst cps)) mem' = firstn o mem ++ tr dst cps /\
       o + length (tr dst cps) <= length mem' /\ length mem <= length mem' /\ (Z.of_nat (length mem') < 2 ^ W)%Z /\
       (o + length (tr dst cps) <= length mem -> skipn (o + length (tr dst cps)) mem' = skipn (o + length (tr dst cps)) mem)) /\
  ((2 ^ W <= Z.of_nat (o + length (tr dst cps)))%Z ->
     exists mem' i' o', conv_a_loop step W checked fuel s (mem, i, o) = Throw (mem', i', o') /\
       firstn o mem' = firstn o mem).
Proof.
  induction fuel as [|fuel IH]; intros s mem i o cps rest Hs Hi Ho Hm P Hf Hf1; [lia|].
  cbn [conv_a_loop].
  destruct (incr_parse s mem i o cps rest Hs Hi Ho P) as (k & ex & er & R & K1 & K2 & K3 & K4 & K5).
  rewrite R. pose proof P as (E & V & B).
  assert (Hlm : forall n, o + n <= length mem -> forall u : list Z, length u = n -> length (firstn o mem ++ u ++ skipn (o + n) mem) = length mem).
  { intros n Hn u Hu. rewrite !app_length, firstn_length, skipn_length. lia. }
  set (n := length (tr dst (firstn k cps))) in *.
  set (mem2 := firstn o mem ++ tr dst (firstn k cps) ++ skipn (o + n) mem) in *.
  assert (Hl2 : length mem2 = length mem) by (apply Hlm; auto).
  assert (Hf2 : firstn (o + n) mem2 = firstn o mem ++ tr dst (firstn k cps)).
  { unfold mem2. rewrite app_assoc. apply firstn_app_eq. rewrite app_length, firstn_length. unfold n. lia. }
  pose proof (f_equal (@length Z) E) as El. rewrite skipn_length, app_length in El.
  pose proof (len_tr src k cps) as Ls. pose proof (len_tr dst k cps) as Ld. fold n in Ld.
  destruct (Nat.eq_dec k (length cps)) as [Ek|Ek].
  - assert (En : n = length (tr dst cps)). { unfold n. rewrite Ek, firstn_all. easy. }
    assert (Ei : length (tr src (firstn k cps)) = length (tr src cps)) by (rewrite Ek, firstn_all; easy).
    rewrite Ei.
    assert (Et : tr dst (firstn k cps) = tr dst cps) by (rewrite Ek, firstn_all; easy).
    destruct (K5 Ek) as (Hex & Hr & Hst).
    assert (Hres : (if ex then if negb checked || (i + length (tr src cps) =? length s)
                      then Done (mem2, i + length (tr src cps), o + n) else UB
                    else if checked && negb (i + length (tr src cps) <? length s) then UB
                      else if negb er then match expand_a W 0%Z mem2 tt 1 (Z.of_nat (o + n)) (size_max W) with
                        | Done (buffer, _) => conv_a_loop step W checked fuel s (buffer, i + length (tr src cps), o + n)
                        | Throw _ => Throw (mem2, i + length (tr src cps), o + n) | UB => UB end
                      else Done (mem2, i + length (tr src cps), o + n)) = Done (mem2, i + length (tr src cps), o + n)).
    { destruct er; cbn [negb] in Hex; subst ex.
      - assert (rest <> []) by (intros ->; discriminate (Hr eq_refl)). destruct rest; [easy|]. cbn [length] in El.
        replace (i + length (tr src cps) <? length s) with true by lia. now rewrite andb_false_r.
      - destruct checked eqn:Ec; [|easy]. cbn [negb orb].
        assert (rest = []). { apply (Hchecked eq_refl rest 0); [|apply Hst].
          rewrite <- (firstn_skipn i s), E in Hs. apply ok_app in Hs. destruct Hs as [_ Hs]. now apply ok_app in Hs. }
        subst rest. cbn [length] in El. replace (i + length (tr src cps) =? length s) with true by lia. easy. }
    rewrite Hres. rewrite <- En. rewrite <- Et. split; [|lia].
    intros _. exists mem2. split; [easy|]. split; [easy|]. split; [lia|]. split; [lia|]. split; [lia|].
    intros _. unfold mem2. rewrite !skipn_app, firstn_length. fold n.
    rewrite (skipn_all2 (firstn o mem)) by (rewrite firstn_length; lia).
    rewrite (skipn_all2 (tr dst (firstn k cps))) by (fold n; lia).
    replace (o + n - Nat.min o (length mem) - n) with 0 by lia. reflexivity.
  - destruct (K4 ltac:(lia)) as (-> & -> & Kr). cbn [negb].
    assert (Hin : i + length (tr src (firstn k cps)) < length s).
    { assert (1 <= length (tr src (skipn k cps))).
      { pose proof (Forall_skipn _ k _ V) as V2. pose proof (skipn_length k cps) as Lk.
        destruct (skipn k cps) as [|c l]; [cbn in Lk; lia|]. inversion V2; subst. cbn [flat_map]. rewrite app_length.
        pose proof (Hsrc c H1). lia. }
      lia. }
    replace (i + length (tr src (firstn k cps)) <? length s) with true by lia. rewrite andb_false_r.
    pose proof (len_tr_bound _ (Forall_firstn _ k _ V)) as [Bf _]. fold n in Bf.
    pose proof (len_tr dst (S k) cps) as Ld1.
    pose proof (len_tr_bound _ (Forall_skipn _ k _ V)) as [Bs _].
    (* room < 4 * remaining *)
    assert (Hroom : length mem - (o + n) < 4 * (length s - (i + length (tr src (firstn k cps))))) by lia.
    destruct (expand_ok mem2 (o + n) ltac:(lia) ltac:(lia)) as [X1 X2].
    destruct (Z.eq_dec (Z.of_nat (length mem2)) (2 ^ W - 1)) as [Hfull|Hfull].
    + rewrite (X2 Hfull). split; intros Hc; [lia|].
      do 3 eexists. split; [reflexivity|]. unfold mem2. apply firstn_app_eq. rewrite firstn_length. lia.
    + destruct (X1 ltac:(lia)) as (mem3 & X & Xl & Xw & Xf). rewrite X.
      assert (P2 : parse (skipn (i + length (tr src (firstn k cps))) s) (skipn k cps) rest).
      { split; [easy|]. split; [now apply Forall_skipn|easy]. }
      destruct (IH s mem3 (i + length (tr src (firstn k cps))) (o + n) (skipn k cps) rest) as [A1 A2]; auto; try lia.
      replace (o + n + length (tr dst (skipn k cps))) with (o + length (tr dst cps)) in A1, A2 by lia.
      replace (i + length (tr src (firstn k cps)) + length (tr src (skipn k cps))) with (i + length (tr src cps)) in A1 by lia.
      assert (Hff : firstn o mem3 = firstn o mem).
      { rewrite <- (Nat.min_l o (o + n)) by lia. rewrite <- (firstn_firstn mem3), Xf, firstn_firstn.
        rewrite Nat.min_l by lia. unfold mem2. apply firstn_app_eq. rewrite firstn_length. lia. }
      split; intros Hc.
      * destruct (A1 Hc) as (mem' & R' & F1 & F2 & F3 & F4 & F5). exists mem'. split; [easy|].
        split; [|split; [lia|split; [lia|split; [lia|]]]].
        -- rewrite F1, Xf, Hf2, <- app_assoc. now rewrite flat_map_firstn.
        -- lia.
      * destruct (A2 Hc) as (mem' & i' & o' & R' & F). exists mem', i', o'. split; [easy|].
        rewrite <- (Nat.min_l o (o + n)) by lia. rewrite <- (firstn_firstn mem'), F, firstn_firstn.
        rewrite Nat.min_l by lia. easy.
Qed.

Lemma conv_a_ok s mem i o cps rest : ok s -> i <= length s -> o <= length mem ->
  (Z.of_nat (length mem) < 2 ^ W)%Z -> parse (skipn i s) cps rest ->
  ((Z.of_nat (o + length (tr dst cps)) < 2 ^ W)%Z ->
     exists mem', conv_a step W checked s (mem, i, o) =
         Done (mem', i + length (tr src cps), o + length (tr dst cps)) /\
       firstn (o + length (tr dst cps)) mem' = firstn o mem ++ tr dst cps /\
       o + length (tr dst cps) <= length mem' /\ length mem <= length mem' /\ (Z.of_nat (length mem') < 2 ^ W)%Z /\
       (o + length (tr dst cps) <= length mem -> skipn (o + length (tr dst cps)) mem' = skipn (o + length (tr dst cps)) mem)) /\
  ((2 ^ W <= Z.of_nat (o + length (tr dst cps)))%Z ->
     exists mem' i' o', conv_a step W checked s (mem, i, o) = Throw (mem', i', o') /\
       firstn o mem' = firstn o mem).
Proof. intros. unfold conv_a. apply conv_a_loop_ok with (rest := rest); auto; lia. Qed.

Lemma try_conv_ok s mem o cps rest : ok s -> o <= length mem ->
  (Z.of_nat (length mem) < 2 ^ W)%Z -> parse s cps rest ->
  ((Z.of_nat (o + length (tr dst cps)) < 2 ^ W)%Z -> exists mem',
     firstn (o + length (tr dst cps)) mem' = firstn o mem ++ tr dst cps /\
     o + length (tr dst cps) <= length mem' /\ (Z.of_nat (length mem') < 2 ^ W)%Z /\
     (rest = [] -> try_conv step W checked s mem o = Done (mem', o + length (tr dst cps), true)) /\
     (rest <> [] -> try_conv step W checked s mem o = Done (mem', o, false))) /\
  ((2 ^ W <= Z.of_nat (o + length (tr dst cps)))%Z ->
     exists mem', try_conv step W checked s mem o = Throw (mem', o, false) /\ firstn o mem' = firstn o mem).
Proof.
  intros Hs Ho Hm P. unfold try_conv.
  destruct (conv_a_ok s mem 0 o cps rest Hs ltac:(lia) Ho Hm P) as [A1 A2].
  destruct P as (E & V & B). pose proof (f_equal (@length Z) E) as El. rewrite app_length in El.
  split; intros Hc.
  - destruct (A1 Hc) as (mem' & R & F1 & F2 & F3 & F4 & _). rewrite R. cbn [Nat.add] in *.
    exists mem'. split; [easy|]. split; [easy|]. split; [easy|]. split; intros Hr.
    + subst rest. cbn [length] in El. now replace (length (tr src cps) =? length s) with true by lia.
    + destruct rest; [easy|]. cbn [length] in El.
      replace (length (tr src cps) =? length s) with false by lia.
      now replace (length (tr src cps) <? length s) with true by lia.
  - destruct (A2 Hc) as (mem' & i' & o' & R & F). rewrite R. eauto.
Qed.

(* Lenient conversion *)
Context (resync : list Z -> nat) (replacement : list Z)
        (Hresync : forall t, ok t -> resync t <= length t /\ forall i, i < resync t -> bad (skipn i t))
        (Hrep : 1 <= length replacement <= 3).

Inductive walk : list Z -> nat -> Prop :=
| walk_nil : walk [] 0
| walk_good c s n : valid c -> walk s n -> walk (src c ++ s) (length (dst c) + n)
| walk_skip x s n : bad (x :: s) -> walk s n -> walk (x :: s) n.

Lemma src_app_nonnil c s : valid c -> src c ++ s <> [].
Proof. intros Hc H. pose proof (Hsrc c Hc). destruct (src c); cbn in *; [lia|discriminate]. Qed.

Lemma walk_fun s n : walk s n -> forall m, walk s m -> n = m.
Proof.
  induction 1 as [|c s n Hc _ IH|x s n Hb _ IH]; intros m Hm.
  - inversion Hm; [easy|]. exfalso. now apply (src_app_nonnil c s).
  - inversion Hm as [E|c' s' n' Hc' Hw E E'|x s' n' Hb Hw E E'].
    + symmetry in E. now apply src_app_nonnil in E.
    + destruct (Hpf _ _ _ _ Hc' Hc E) as [-> ->]. f_equal. now apply IH.
    + rewrite E in Hb. exfalso. exact (Hb _ _ Hc eq_refl).
  - inversion Hm as [E|c' s' n' Hc' Hw E E'|x' s' n' Hb' Hw E E'].
    + rewrite <- E in Hb. exfalso. exact (Hb _ _ Hc' eq_refl).
    + subst. now apply IH.
Qed.

Lemma walk_goods cps : forall s n, Forall valid cps -> walk s n -> walk (tr src cps ++ s) (length (tr dst cps) + n).
Proof.
  induction cps as [|c cps IH]; intros s n V H; [easy|]. inversion V; subst. cbn [flat_map].
  rewrite <- app_assoc, app_length, <- Nat.add_assoc. apply walk_good; [easy|]. now apply IH.
Qed.

Lemma walk_skips k : forall s n, k <= length s -> (forall i, i < k -> bad (skipn i s)) -> walk (skipn k s) n -> walk s n.
Proof.
  induction k as [|k IH]; intros s n Hk Hb H; [easy|]. destruct s as [|x s]; [cbn in Hk; lia|].
  apply walk_skip; [apply (Hb 0); lia|]. cbn in H, Hk. apply IH; [lia| |easy]. intros i Hi. apply (Hb (S i)). lia.
Qed.

Lemma mended_walk s out : mended valid src dst replacement s out ->
  exists n, walk s n /\ n <= length out /\ (n = length out -> exists cps, Forall valid cps /\ s = tr src cps).
Proof.
  induction 1 as [|c s out Hc _ (n & W1 & W2 & W3)|part s out Hp Hb _ (n & W1 & W2 & W3)].
  - exists 0. split; [constructor|]. split; [easy|]. intros _. now exists [].
  - exists (length (dst c) + n). split; [now constructor|]. rewrite app_length. split; [lia|].
    intros Hn. destruct W3 as (cps & V & ->); [lia|]. exists (c :: cps). split; [now constructor|easy].
  - exists n. rewrite app_length. split; [|split; lia].
    apply (walk_skips (length part)).
    + rewrite app_length; lia.
    + intros i Hi. rewrite skipn_app. replace (i - length part) with 0 by lia. cbn [skipn].
      apply (Hb (firstn i part)); [now rewrite firstn_skipn|]. intros H.
      apply (f_equal (@length Z)) in H. rewrite skipn_length in H. cbn in H. lia.
    + rewrite skipn_app, skipn_all, Nat.sub_diag. easy.
Qed.

Lemma walk_bound s n : walk s n -> n <= 4 * length s.
Proof.
  induction 1 as [|c s n Hc _ IH|x s n Hb _ IH]; [lia| |cbn; lia].
  rewrite app_length. pose proof (Hsrc c Hc). pose proof (Hdst c Hc). lia.
Qed.

Lemma skipn_add {A} a b (l : list A) : skipn a (skipn b l) = skipn (b + a) l.
Proof. revert l. induction b; intros; [easy|]. destruct l; cbn; [now rewrite skipn_nil|apply IHb]. Qed.

Lemma conv_l_loop_ok fuel : forall s mem i o o2, ok s -> i <= length s -> o <= length mem -> o2 <= length mem ->
  (Z.of_nat (length mem) < 2 ^ W)%Z -> length s - i < fuel ->
  (Z.of_nat (o2 + 4 * (length s - i)) < 2 ^ W)%Z -> (Z.of_nat (o + 3 * (length s - i)) < 2 ^ W)%Z ->
  exists mem' n, conv_l_loop step W checked resync replacement fuel s mem i o o2 = Done (mem', o2 + n) /\
    walk (skipn i s) n.
Proof.
  induction fuel as [|fuel IH]; intros s mem i o o2 Hs Hi Ho Ho2 Hm Hf Hw Hw2; [lia|]. cbn [conv_l_loop].
  assert (Hsi : ok (skipn i s)) by now apply Forall_skipn.
  destruct (parse_exists (skipn i s) Hsi) as (cps & rest & P). pose proof P as (E & V & B).
  pose proof (f_equal (@length Z) E) as El. rewrite skipn_length, app_length in El.
  pose proof (len_tr_bound _ V) as [Bd _].
  destruct (conv_a_ok s mem i o2 cps rest Hs Hi Ho2 Hm P) as [A1 _].
  destruct (A1 ltac:(lia)) as (mem1 & R & F1 & F2 & F3 & F4 & _). rewrite R.
  destruct rest as [|x rest].
  - cbn [length] in El. replace (i + length (tr src cps) =? length s) with true by lia.
    exists mem1, (length (tr dst cps)). split; [easy|]. rewrite E. rewrite <- (Nat.add_0_r (length (tr dst cps))).
    apply walk_goods; [easy|constructor].
  - cbn [length] in El. replace (i + length (tr src cps) =? length s) with false by lia.
    replace (i + length (tr src cps) <? length s) with true by lia. cbn [negb].
    set (j := i + length (tr src cps) + 1).
    assert (Ej : skipn j s = rest).
    { unfold j. rewrite <- Nat.add_assoc, <- skipn_add, E, skipn_app.
      rewrite skipn_all2 by lia. replace (length (tr src cps) + 1 - length (tr src cps)) with 1 by lia. easy. }
    assert (Hor : ok rest). { rewrite <- Ej. now apply Forall_skipn. }
    destruct (Hresync rest Hor) as [Rl Rb]. rewrite Ej.
    destruct (buffer_append_exact W Z 0%Z mem1 replacement o HW ltac:(lia) F4 ltac:(lia)) as [B1 _].
    destruct B1 as (mem2 & R2 & G1 & G2 & G3 & G4); [lia|]. rewrite R2, Nat2Z.id.
    assert (Gl : length mem1 <= length mem2 /\ o + length replacement <= length mem2).
    { destruct (le_lt_dec (o + length replacement) (length mem1)) as [h|h]; [destruct (G3 h); lia|].
      destruct (G4 h) as [? ?]. lia. }
    destruct (IH s mem2 (j + resync rest) (o + length replacement) (o2 + length (tr dst cps))) as (mem' & n & R' & Hn);
      unfold j in *; auto; try lia.
    rewrite R'. exists mem', (length (tr dst cps) + n). split; [do 2 f_equal; lia|].
    rewrite E. apply walk_goods; [easy|]. apply walk_skip; [easy|].
    apply (walk_skips (resync rest)); [easy|easy|]. rewrite <- Ej, skipn_add, Ej. easy.
Qed.

Lemma conv_l_ok s mem o : ok s -> o <= length mem -> (Z.of_nat (length mem) < 2 ^ W)%Z ->
  (Z.of_nat (o + 4 * length s) < 2 ^ W)%Z ->
  exists mem' n, conv_l step W checked resync replacement s mem o = Done (mem', o + n) /\ walk s n.
Proof. intros. unfold conv_l. apply (conv_l_loop_ok _ s mem 0 o o); auto; lia. Qed.

Lemma conv_l_good s mem o cps : ok s -> o <= length mem -> (Z.of_nat (length mem) < 2 ^ W)%Z ->
  (Z.of_nat (o + length (tr dst cps)) < 2 ^ W)%Z -> Forall valid cps -> s = tr src cps ->
  exists mem', conv_l step W checked resync replacement s mem o = Done (mem', o + length (tr dst cps)) /\
    firstn (o + length (tr dst cps)) mem' = firstn o mem ++ tr dst cps.
Proof.
  intros Hs Ho Hm Hw V E. unfold conv_l. rewrite Nat.add_1_r. cbn [conv_l_loop].
  destruct (conv_a_ok s mem 0 o cps [] Hs ltac:(lia) Ho Hm) as [A1 _].
  { split; [now rewrite app_nil_r|]. split; [easy|apply bad_nil]. }
  destruct (A1 Hw) as (mem1 & R & F1 & _). rewrite R. cbn [Nat.add]. rewrite <- E, Nat.eqb_refl. eauto.
Qed.

(* A sequence of calls, where input arrives in pieces, and each call has a new output
   buffer.  The input of a call is what was left by the previous call followed by the new
   piece.  The result is the remaining input, the total output and the flags of the last
   call.  There are no further calls after an error. *)
Fixpoint session (pending : list Z) (calls : list (list Z * nat)) : option (list Z * list Z * bool * bool) :=
  match calls with
  | [] => Some (pending, [], false, false)
  | (piece, room) :: calls =>
    match incr step (pending ++ piece) (repeat 0%Z room) 0 0 with
    | None => None
    | Some (buffer, in_offset, out_offset, exhausted, error) =>
      let pending := skipn in_offset (pending ++ piece) in
      if error : bool then Some (pending ++ concat (map fst calls), firstn out_offset buffer, exhausted, error)
      else match calls with
           | [] => Some (pending, firstn out_offset buffer, exhausted, error)
           | _ => match session pending calls with
                  | None => None
                  | Some (pending, out, exhausted, error) => Some (pending, firstn out_offset buffer ++ out, exhausted, error)
                  end
           end
    end
  end.

Lemma stopped_more rest q ex : stopped rest ex true -> ok (rest ++ q) -> stopped (rest ++ q) ex true.
Proof.
  intros (H1 & H2 & H3) Hok. split; [easy|]. split.
  - intros H. destruct rest; [now apply H2|discriminate].
  - intros room. rewrite Hmore; [apply H3|easy|]. now rewrite H3.
Qed.

Lemma stopped_bad rest ex er : ok rest -> stopped rest ex er -> bad rest.
Proof.
  intros Hok (_ & _ & H). destruct (Hstep rest Hok) as [(c & t & Hc & E & H1)|[H1 _]]; [|easy].
  specialize (H (length (dst c))). specialize (H1 (length (dst c))). rewrite Nat.leb_refl in H1. rewrite H1 in H. now destruct er.
Qed.

Lemma parse_nth cps : forall k, k < length cps -> tr dst (firstn (S k) cps) = tr dst (firstn k cps) ++ dst (nth k cps 0%Z).
Proof.
  induction cps as [|c cps IH]; intros k Hk; cbn in Hk; [lia|].
  destruct k; cbn [firstn flat_map nth]; [cbn; now rewrite app_nil_r|]. rewrite <- app_assoc, <- IH by lia. easy.
Qed.

Lemma session_ok calls : forall pending cps rest, calls <> [] ->
  ok (pending ++ concat (map fst calls)) -> parse (pending ++ concat (map fst calls)) cps rest ->
  exists k ex er, session pending calls = Some (tr src (skipn k cps) ++ rest, tr dst (firstn k cps), ex, er) /\
    k <= length cps /\
    (ex = true \/ er = true -> k = length cps /\ stopped rest ex er) /\
    (ex = false /\ er = false -> k < length cps /\
      exists used, used <= snd (last calls ([], 0)) < used + length (dst (nth k cps 0%Z))).
Proof.
  induction calls as [|(piece, room) calls IH]; intros pending cps rest Hne Hok P; [easy|]. cbn [session].
  cbn [map concat fst] in Hok, P. rewrite app_assoc in Hok, P.
  set (now := pending ++ piece) in *. set (later := concat (map fst calls)) in *.
  destruct (ok_app _ _ Hok) as [Hnow Hlater].
  destruct (parse_exists now Hnow) as (cps1 & rest1 & P1).
  destruct (incr_parse now (repeat 0%Z room) 0 0 cps1 rest1 Hnow ltac:(lia) ltac:(lia) P1)
    as (k & ex & er & R & K1 & K2 & K3 & K4 & K5).
  rewrite repeat_length in K2, K4. cbn [Nat.add] in R, K2, K3, K4. rewrite R. rewrite K3.
  cbn [firstn app]. rewrite firstn_app_eq by easy.
  pose proof P1 as (E1 & V1 & B1).
  set (p2 := tr src (skipn k cps1) ++ rest1) in *.
  assert (Enow : now = tr src (firstn k cps1) ++ p2).
  { unfold p2. rewrite app_assoc, flat_map_firstn. exact E1. }
  assert (Hp2 : ok (p2 ++ later)). { rewrite Enow, <- app_assoc in Hok. now apply ok_app in Hok. }
  destruct (parse_exists (p2 ++ later) Hp2) as (cps2 & rest2 & P2).
  assert (P' : parse (now ++ later) (firstn k cps1 ++ cps2) rest2).
  { destruct P2 as (E2 & V2 & B2). split; [|split; [|easy]].
    - rewrite Enow, <- app_assoc, E2, flat_map_app, app_assoc. easy.
    - apply Forall_app. split; [now apply Forall_firstn|easy]. }
  destruct (parse_unique _ _ _ _ _ P P') as [-> ->].
  assert (Lk : length (firstn k cps1) = k) by (rewrite firstn_length; lia).
  assert (Hfk : firstn k (firstn k cps1 ++ cps2) = firstn k cps1) by (apply firstn_app_eq; easy).
  assert (Hsk : skipn k (firstn k cps1 ++ cps2) = cps2).
  { rewrite skipn_app, Lk, Nat.sub_diag. rewrite skipn_all2 by lia. easy. }
  destruct er.
  - assert (Ek : k = length cps1).
    { destruct (Nat.eq_dec k (length cps1)); [easy|]. destruct (K4 ltac:(lia)) as (_ & ? & _). easy. }
    pose proof (K5 Ek) as Hst.
    assert (Ep2 : p2 = rest1). { unfold p2. rewrite Ek, skipn_all. easy. }
    assert (Hst2 : stopped (p2 ++ later) ex true). { apply stopped_more; [now rewrite Ep2|easy]. }
    assert (P3 : parse (p2 ++ later) [] (p2 ++ later)).
    { split; [easy|]. split; [constructor|]. now apply (stopped_bad _ ex true). }
    destruct (parse_unique _ _ _ _ _ P2 P3) as [-> ->].
    exists k, ex, true. rewrite app_nil_r in *. rewrite firstn_firstn, Nat.min_id.
    split; [|split; [lia|split; [intros _; split; [lia|easy]|intros [_ ?]; easy]]].
    rewrite skipn_all2 by lia. easy.
  - destruct calls as [|call calls].
    + assert (El : later = []) by reflexivity. rewrite El, app_nil_r in *.
      assert (P3 : parse p2 (skipn k cps1) rest1).
      { split; [easy|]. split; [now apply Forall_skipn|easy]. }
      destruct (parse_unique _ _ _ _ _ P2 P3) as [-> ->]. rewrite firstn_skipn in *.
      exists k, ex, false. split; [easy|]. split; [easy|]. cbn [last snd].
      destruct (Nat.eq_dec k (length cps1)) as [Ek|Ek].
      * pose proof (K5 Ek) as Hst. pose proof Hst as (Hex & _). cbn [negb] in Hex. subst ex.
        split; [intros _; auto|intros [? ?]; easy].
      * destruct (K4 ltac:(lia)) as (-> & _ & Kr). split; [intros [?|?]; easy|]. intros _. split; [lia|].
        exists (length (tr dst (firstn k cps1))). rewrite parse_nth, app_length in Kr by lia. lia.
    + destruct (IH p2 cps2 rest2 ltac:(easy) Hp2 P2) as (k2 & ex2 & er2 & R2 & I1 & I2 & I3).
      rewrite R2. exists (k + k2), ex2, er2.
      split.
      * rewrite skipn_app, firstn_app, Lk. rewrite (skipn_all2 (firstn k cps1)) by lia. rewrite (firstn_all2 (firstn k cps1)) by lia.
        replace (k + k2 - k) with k2 by lia. rewrite !flat_map_app. easy.
      * rewrite app_length, Lk. split; [lia|]. split.
        -- intros H. destruct (I2 H). split; [lia|easy].
        -- intros H. destruct (I3 H) as (? & used & Hu). split; [lia|]. exists used.
           replace (last ((piece, room) :: call :: calls) ([], 0)) with (last (call :: calls) ([], 0)) by reflexivity.
           rewrite app_nth2 by lia. rewrite Lk. replace (k + k2 - k) with k2 by lia. easy.
Qed.
End Generic.
