From Coq Require Import ZArith QArith Qround Qfield Lia Lqa String Ascii List Bool.
From Verif Require Import HistogramModel HistogramSpec HistogramProofs ArrLib.
Import ListNotations.
Local Open Scope Z_scope.

Lemma list_max_cons x l : list_max (x :: l) = Nat.max x (list_max l).
Proof. reflexivity. Qed.

Section PrintOk.
  Variable C : Type.
  Variable widen : ascii -> C.
  Variable fmt : bool -> value -> list C.
  Variable fmt_count : Z -> list C.
  Hypothesis fmt_size : forall sp v, Z.of_nat (length (fmt sp v)) < 2 ^ 31.
  Hypothesis count_size : forall n, Z.of_nat (length (fmt_count n)) < 2 ^ 31.

  Notation columns := (columns C).
  Notation view := (c_view C).

  Definition good (st : columns) (r : range) (s : list C) : Prop :=
    (r_begin r <= r_end r <= length (view st))%nat /\ get_string C (view st) r = s.

  Definition extends (st st' : columns) : Prop := exists t, view st' = view st ++ t.

  Lemma good_length st r s : good st r s -> length s = (r_end r - r_begin r)%nat.
  Proof. intros [H <-]. unfold get_string. rewrite firstn_length, skipn_length. lia. Qed.

  Lemma good_extends st st' r s : extends st st' -> good st r s -> good st' r s.
  Proof.
    intros [t E] [H <-]. unfold good, get_string. rewrite E. split; [rewrite app_length; lia|].
    rewrite skipn_app, firstn_app. rewrite skipn_length. replace (r_end r - r_begin r - (length (view st) - r_begin r))%nat with O by lia. cbn [firstn]. now rewrite app_nil_r.
  Qed.

  Lemma extends_trans a b c : extends a b -> extends b c -> extends a c.
  Proof. intros [t E] [u E2]. exists (t ++ u). now rewrite E2, E, app_assoc. Qed.

  Lemma good_append (st : columns) s : good (with_view C st (view st ++ s)) (Range (length (view st)) (length (view st ++ s))) s.
  Proof.
    unfold good, get_string, with_view. cbn [r_begin r_end c_view]. rewrite app_length. split; [lia|]. rewrite skipn_app, skipn_all, Nat.sub_diag. cbn [skipn app].
    apply firstn_all2. lia.
  Qed.

  Lemma widen_column_ok r w s st : good st r s -> Z.of_nat (length s) < 2 ^ 31 -> widen_column r w = Printed (Z.max w (Z.of_nat (length s))).
  Proof.
    intros G H. unfold widen_column. rewrite <- (good_length _ _ _ G). replace (2 ^ 31 - 1 <? Z.of_nat (length s)) with false by lia. f_equal.
    destruct (Z.ltb_spec w (Z.of_nat (length s))); lia.
  Qed.

  Lemma next_ok sp st from s to n : good st from s -> Z.of_nat (length s) < 2 ^ 31 ->
    exists bt st', next_texts C fmt fmt_count sp st from to n = Printed (bt, bt_to bt, st') /\ extends st st' /\
      good st' (bt_from bt) s /\ good st' (bt_to bt) (fmt sp to) /\ good st' (bt_count bt) (fmt_count n) /\
      c_from C st' = Z.max (c_from C st) (Z.of_nat (length s)) /\
      c_to C st' = Z.max (c_to C st) (Z.of_nat (length (fmt sp to))) /\
      c_count C st' = Z.max (c_count C st) (Z.of_nat (length (fmt_count n))).
  Proof.
    intros G Hs. unfold next_texts, append_text, make_texts. cbn [with_view c_view c_from c_to c_count].
    set (st1 := with_view C st (view st ++ fmt sp to)).
    assert (X1 : extends st st1) by (exists (fmt sp to); reflexivity).
    pose proof (good_append st (fmt sp to)) as G1. fold st1 in G1.
    rewrite (widen_column_ok _ _ _ _ G Hs). cbn [pbind]. rewrite (widen_column_ok _ _ _ _ G1 (fmt_size _ _)). cbn [pbind]. unfold append_text.
    pose proof (good_append st1 (fmt_count n)) as G2. unfold st1 at 2 3 in G2. cbn [with_view c_view] in G2. cbn [with_view c_view c_from c_to c_count].
    rewrite (widen_column_ok _ _ _ _ G2 (count_size _)). cbn [pbind].
    eexists (BinTexts _ _ _), _. cbn [bt_from bt_to bt_count c_from c_to c_count]. split; [reflexivity|].
    match goal with |- extends _ ?x /\ _ => set (st2 := x) end.
    assert (X2 : extends st1 st2) by (exists (fmt_count n); reflexivity).
    split; [now apply extends_trans with st1|]. split; [apply (good_extends st1 st2); [exact X2|now apply (good_extends st)]|].
    split; [now apply (good_extends st1 st2)|]. split; [exact G2|]. repeat split; reflexivity.
  Qed.

  Hypothesis fmt_eq : forall sp q q', (q == q')%Q -> fmt sp (Finite q) = fmt sp (Finite q').

  Definition fits (st : columns) (sp : bool) (bt : bin_texts) (r : row) : Prop :=
    let '(f, t, n) := r in good st (bt_from bt) (fmt sp f) /\ good st (bt_to bt) (fmt sp t) /\ good st (bt_count bt) (fmt_count n).

  Lemma fits_extends st st' sp bts rs : extends st st' -> Forall2 (fits st sp) bts rs -> Forall2 (fits st' sp) bts rs.
  Proof.
    intros X H. induction H as [|bt [[f t] n] bts rs H H2 IH]; constructor; [|assumption]. destruct H as (A & B & D).
    split; [|split]; apply (good_extends st st'); assumption.
  Qed.

  Definition widths (st : columns) (sp : bool) (st0 : columns) (rs : list row) : Prop :=
    c_from C st = Z.max (c_from C st0) (Z.of_nat (widest (map (fun '(f, _, _) => fmt sp f) rs))) /\
    c_to C st = Z.max (c_to C st0) (Z.of_nat (widest (map (fun '(_, t, _) => fmt sp t) rs))) /\
    c_count C st = Z.max (c_count C st0) (Z.of_nat (widest (map (fun '(_, _, n) => fmt_count n) rs))).

  Lemma next_row sp st from f to n : good st from (fmt sp f) ->
    exists bt st', next_texts C fmt fmt_count sp st from to n = Printed (bt, bt_to bt, st') /\ extends st st' /\ fits st' sp bt (f, to, n) /\
      good st' (bt_to bt) (fmt sp to) /\ widths st' sp st [(f, to, n)].
  Proof.
    intros G. destruct (next_ok sp st from (fmt sp f) to n G (fmt_size _ _)) as (bt & st' & E & X & A & B & D & W1 & W2 & W3).
    exists bt, st'. unfold fits, widths, widest. cbn [map list_max fold_right]. repeat split; try assumption; try apply A; try apply B; try apply D; rewrite ?W1, ?W2, ?W3, Nat.max_0_r; reflexivity.
  Qed.

  Lemma widths_app a b c sp rs rs' : widths b sp a rs -> widths c sp b rs' -> widths c sp a (rs ++ rs').
  Proof.
    unfold widths, widest. intros (A1 & A2 & A3) (B1 & B2 & B3). rewrite !map_app, !list_max_app, B1, B2, B3, A1, A2, A3, !Nat2Z.inj_max, !Z.max_assoc.
    repeat split; reflexivity.
  Qed.

  Definition nonneg (st : columns) : Prop := 0 <= c_from C st /\ 0 <= c_to C st /\ 0 <= c_count C st.

  Lemma widths_nonneg a b sp rs : nonneg a -> widths b sp a rs -> nonneg b.
  Proof. unfold nonneg, widths. intros (A & B & D) (-> & -> & ->). repeat split; apply Z.max_le_iff; left; assumption. Qed.

  Lemma widths_nil a sp : nonneg a -> widths a sp a [].
  Proof. unfold nonneg, widths, widest. intros (A & B & D). cbn. rewrite !Z.max_l by assumption. repeat split; reflexivity. Qed.

  Section Bins2.
    Variables base top : Q.
    Variable n : nat.
    Hypothesis order : (base < top)%Q.
    Hypothesis some : (0 < n)%nat.
    Notation scale := (inject_Z (Z.of_nat n) / (top - base))%Q.

    Lemma boundary_model i : (base + inject_Z (Z.of_nat (i + 1)) * (1 / scale) == boundary base top n (i + 1))%Q.
    Proof. unfold boundary. rewrite (ratio n some). pose proof (n_pos n some). field. split; lra. Qed.

    Definition bin_rows (g : nat -> Z) i m : list row := map (fun i => (Finite (boundary base top n i), Finite (boundary base top n (i + 1)), g i)) (seq i m).

    Lemma bins_ok sp g m : forall i st from, nonneg st -> good st from (fmt sp (Finite (boundary base top n i))) ->
      exists bts from' st', bins_texts C fmt fmt_count sp base (1 / scale) i (map g (seq i m)) from st = Printed (bts, from', st') /\ extends st st' /\
        Forall2 (fits st' sp) bts (bin_rows g i m) /\ good st' from' (fmt sp (Finite (boundary base top n (i + m)))) /\ widths st' sp st (bin_rows g i m).
    Proof.
      induction m as [|m IH]; intros i st from H0 G; cbn [seq map bins_texts].
      - exists [], from, st. split; [reflexivity|]. split; [exists []; now rewrite app_nil_r|]. split; [constructor|]. rewrite Nat.add_0_r. split; [exact G|].
        apply widths_nil. exact H0.
      - destruct (next_row sp st from _ (Finite (base + inject_Z (Z.of_nat (i + 1)) * (1 / scale))) (g i) G) as (bt & st1 & E1 & X1 & F1 & G1 & W1).
        rewrite E1. cbn [pbind].
        unfold fits in F1. unfold widths in W1. cbn [map] in W1. rewrite (fmt_eq sp _ _ (boundary_model i)) in F1, G1, W1.
        change (widths st1 sp st [(Finite (boundary base top n i), Finite (boundary base top n (i + 1)), g i)]) in W1.
        replace (i + 1)%nat with (S i) in G1 at 1 by lia.
        destruct (IH (S i) st1 (bt_to bt) (widths_nonneg _ _ _ _ H0 W1) G1) as (bts & from' & st' & E2 & X2 & F2 & G2 & W2).
        rewrite E2. cbn [pbind]. exists (bt :: bts), from', st'. split; [reflexivity|]. split; [now apply extends_trans with st1|].
        unfold bin_rows. cbn [seq map]. split; [|split].
        + constructor; [|exact F2]. assert (L : Forall2 (fits st' sp) [bt] [(Finite (boundary base top n i), Finite (boundary base top n (i + 1)), g i)]).
          { apply (fits_extends st1); [exact X2|]. constructor; [exact F1|constructor]. } now inversion L.
        + replace (i + S m)%nat with (S i + m)%nat by lia. exact G2.
        + apply (widths_app st st1 st' sp [_] _ W1 W2).
    Qed.
  End Bins2.

  Definition hashes (n : nat) : list C := repeat (widen "#"%char) n.

  Lemma bar_ok d M n : 0 < M -> 0 <= n <= M -> 0 <= d < 2 ^ 31 ->
    exists r, bar_size d M n = Printed r /\ 0 <= r <= d /\ Z.abs (2 * r * M - 2 * n * d) <= M.
  Proof.
    intros HM Hn Hd. unfold bar_size. replace (M =? 0) with false by lia.
    assert (R : round (inject_Z n * (inject_Z d / inject_Z M)) = (2 * n * d + M) / (2 * M)).
    { assert (QM : (0 < inject_Z M)%Q) by (change 0%Q with (inject_Z 0); rewrite <- Zlt_Qlt; lia).
      assert (QP : (0 <= inject_Z n * (inject_Z d / inject_Z M))%Q).
      { apply Qmult_le_0_compat; [change 0%Q with (inject_Z 0); rewrite <- Zle_Qle; lia|]. apply Qle_shift_div_l; [exact QM|]. rewrite Qmult_0_l. change 0%Q with (inject_Z 0). rewrite <- Zle_Qle. lia. }
      unfold round. apply Qle_bool_iff in QP. rewrite QP. rewrite Zdiv_Qdiv. apply Qfloor_comp. rewrite inject_Z_plus, !inject_Z_mult. change (inject_Z 2) with (2 # 1). field. lra. }
    rewrite R. set (r := (2 * n * d + M) / (2 * M)).
    assert (A : 2 * M * r <= 2 * n * d + M < 2 * M * r + 2 * M).
    { unfold r. pose proof (Z.div_mod (2 * n * d + M) (2 * M) ltac:(lia)). pose proof (Z.mod_pos_bound (2 * n * d + M) (2 * M) ltac:(lia)). lia. }
    assert (N : n * d <= M * d) by (apply Z.mul_le_mono_nonneg_r; lia).
    assert (r <= d) by nia. assert (0 <= r) by (unfold r; apply Z.div_pos; nia).
    replace ((- 2 ^ 31 <=? r) && (r <? 2 ^ 31)) with true by (symmetry; apply andb_true_iff; lia). exists r. split; [reflexivity|]. split; [lia|]. lia.
  Qed.

  Definition bar (d M n : Z) : nat := match bar_size d M n with Printed r => Z.to_nat r | _ => O end.

  Lemma get_bar_ok k r : 0 <= r -> exists k', get_bar C widen (hashes k) r = Printed (hashes (Z.to_nat r), hashes k').
  Proof.
    intros H. unfold get_bar. replace (r <? 0) with false by lia. unfold hashes. rewrite repeat_length. destruct (Nat.ltb_spec k (Z.to_nat r)) as [L|L].
    - exists (Z.to_nat r). rewrite <- repeat_app. replace (k + (Z.to_nat r - k))%nat with (Z.to_nat r) by lia. rewrite firstn_all2 by (rewrite repeat_length; lia). reflexivity.
    - exists k. do 2 f_equal. replace k with (Z.to_nat r + (k - Z.to_nat r))%nat by lia. rewrite repeat_app, firstn_app, repeat_length, Nat.sub_diag. cbn [firstn].
      rewrite app_nil_r. apply firstn_all2. rewrite repeat_length. lia.
  Qed.

  Lemma format_ok st sp (a b c d : nat) M rs : forall bts k, Forall2 (fits st sp) bts rs ->
    c_from C st = Z.of_nat a -> c_to C st = Z.of_nat b -> c_count C st = Z.of_nat c -> Z.of_nat d < 2 ^ 31 -> 0 < M -> Forall (fun '(_, _, n) => 0 <= n <= M) rs ->
    format_bins C widen st (Z.of_nat d) M (hashes k) (combine bts (map snd rs)) =
      Printed (concat (map (fun '(f, t, n) => line widen a b c d (fmt sp f) (fmt sp t) (fmt_count n) (hashes (bar (Z.of_nat d) M n)) ++ [widen "010"%char]) rs)).
  Proof.
    induction rs as [|[[f t] n] rs IH]; intros bts k F Ha Hb Hc Hd HM HR; inversion F as [|bt ? bts' ? F1 F2]; subst; cbn [combine map snd format_bins concat]; [reflexivity|].
    inversion HR as [|? ? Hn HR2]; subst. destruct (bar_ok (Z.of_nat d) M n HM Hn ltac:(lia)) as (r & E & Hr & _).
    unfold format_bin. unfold bar. rewrite E. cbn [pbind]. destruct (get_bar_ok k r ltac:(lia)) as (k' & E2). rewrite E2. cbn [pbind].
    rewrite (IH bts' k' F2 Ha Hb Hc Hd HM HR2). cbn [pbind]. destruct F1 as ((_ & ->) & (_ & ->) & (_ & ->)). f_equal. f_equal.
    unfold put_left, put_right, line, spaces, fill, text. rewrite Ha, Hb, Hc, !Nat2Z.id. rewrite <- !app_assoc. reflexivity.
  Qed.

  Lemma format_empty st d bts n rest : format_bins C widen st d 0 [] ((bts, n) :: rest) = Undefined.
  Proof. reflexivity. Qed.

  Lemma deduct_all a b c w : 0 <= a -> 0 <= b -> 0 <= c -> fold_left deduct [a; 4; b; 3; c; 3] w = Z.max 0 (w - (a + b + c + 10)).
  Proof.
    intros. assert (D : forall m n, deduct m n = Z.max 0 (m - n)) by (intros m n; unfold deduct; destruct (Z.leb_spec n m); lia).
    cbn [fold_left]. rewrite !D. lia.
  Qed.

  Lemma max_fold l : forall a, fold_left (fun m n => if n <=? m then m else n) l a = Z.max a (fold_right Z.max a l).
  Proof.
    induction l as [|x l IH]; intros a; cbn [fold_left fold_right]; [lia|]. rewrite IH.
    assert (K2 : forall b, Z.max b (fold_right Z.max b l) = fold_right Z.max b l) by (clear; intros b; induction l as [|y l IH]; cbn [fold_right]; lia).
    assert (K3 : forall b c, fold_right Z.max (Z.max b c) l = Z.max b (fold_right Z.max c l)) by (clear; intros b c; induction l as [|y l IH]; cbn [fold_right]; lia).
    rewrite !K2. replace (if x <=? a then a else x) with (Z.max x a) by (destruct (Z.leb_spec x a); lia). rewrite K3.
    pose proof (K2 a). lia.
  Qed.
End PrintOk.
