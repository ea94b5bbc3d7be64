(* Theorems about the histogram *)
From Coq Require Import ZArith QArith Qround Qfield Lia Lqa String Ascii List Bool.
From Verif Require Import HistogramModel HistogramSpec HistogramProofs HistogramProofs2 ArrLib.
Import ListNotations.
Local Open Scope Z_scope.

(* A histogram to which values have been added in order *)
Definition histogram (digits : Z) (from to : Q) (n : nat) (vals : list Q) : option hist :=
  let? h := hist_make from to n in hist_run digits h vals.

(* Distance from the beginning of the range, in units of the width of a bin, is less than 2^64 *)
Definition in_reach (from to : Q) (n : nat) (v : Q) : Prop := ((v - from) * inject_Z (Z.of_nat n) < inject_Z (2 ^ 64) * (to - from))%Q.

Lemma histogram_eq digits from to n vals : (from < to)%Q -> (0 < n)%nat -> 24 <= digits <= 64 -> Z.of_nat n <= 2 ^ 60 ->
  Z.of_nat (length vals) < 2 ^ 63 -> Forall (in_reach from to n) vals ->
  histogram digits from to n vals =
    Some (Hist from (inject_Z (Z.of_nat n) / (to - from)) (map (fun i => count_bin from to n i vals) (seq 0 n)) (count_under from vals) (count_over to vals)).
Proof.
  intros Ho Hn Hd Hl Hv Hr. unfold histogram, hist_make. replace (n =? 0)%nat with false by (symmetry; apply Nat.eqb_neq; lia).
  replace (Qeq_bool to from) with false by (destruct (Qeq_bool to from) eqn:E; [apply Qeq_bool_iff in E; lra|reflexivity]). cbn [orb obind].
  replace (repeat 0 n) with (map (fun _ => 0) (seq 0 n)).
  - rewrite (run_ok from to n Ho Hn digits Hd Hl vals (fun _ => 0) 0 0 0); try lia.
    + rewrite !Z.add_0_l. do 2 f_equal.
    + apply Forall_impl with (2 := Hr). intros v H. now apply not_undefined.
  - clear. generalize 0%nat. induction n as [|n IH]; intros s; cbn [seq map repeat]; [reflexivity|]. now rewrite IH.
Qed.

(* C192: every value is counted exactly once: in the bin in whose range it is, or else below or above *)
Theorem histogram_counts_partial digits from to n vals :
  (from < to)%Q -> (0 < n)%nat -> 24 <= digits <= 64 -> Z.of_nat n <= 2 ^ 60 -> Z.of_nat (length vals) < 2 ^ 63 -> Forall (in_reach from to n) vals ->
  exists h, histogram digits from to n vals = Some h /\
    length (h_bins h) = n /\
    (forall i, (i < n)%nat -> nth_error (h_bins h) i = Some (count_bin from to n i vals)) /\
    h_under h = count_under from vals /\ h_over h = count_over to vals /\
    h_under h + fold_right Z.add 0 (h_bins h) + h_over h = Z.of_nat (length vals).
Proof.
  intros Ho Hn Hd Hl Hv Hr. eexists. split; [now apply histogram_eq|]. cbn [h_bins h_under h_over]. rewrite map_length, seq_length.
  split; [reflexivity|]. split; [|split; [reflexivity|split; [reflexivity|now apply total]]].
  intros i Hi. rewrite nth_error_map. replace (nth_error (seq 0 n) i) with (Some i); [reflexivity|]. symmetry.
  rewrite (nth_error_nth' _ 0%nat) by (rewrite seq_length; exact Hi). now rewrite seq_nth.
Qed.

Example histogram_counts_case :
  option_map (fun h => (h_under h, h_bins h, h_over h)) (histogram 53 (-1) 2 3 [0; 1 # 2; -2; 2; 199 # 100; -1; 1; 7; 0]%Q) = Some (1, [1; 3; 2], 2).
Proof. vm_compute. reflexivity. Qed.

(* C192, full statement: without the assumption about the reach.  Refuted: the conversion to an integer happens before the check of the range. *)
Theorem histogram_counts_refuted digits from to n v : (from < to)%Q -> (0 < n)%nat -> ~ in_reach from to n v -> histogram digits from to n [v] = None.
Proof.
  intros Ho Hn H. unfold in_reach in H. rewrite not_undefined in H by assumption. unfold histogram, hist_make. replace (n =? 0)%nat with false by (symmetry; apply Nat.eqb_neq; lia).
  replace (Qeq_bool to from) with false by (destruct (Qeq_bool to from) eqn:E; [apply Qeq_bool_iff in E; lra|reflexivity]). cbn [orb obind hist_run].
  unfold hist_add. cbn [h_scale h_base]. set (x := (inject_Z (Z.of_nat n) / (to - from) * (v - from))%Q) in *.
  assert (P : Qle_bool 0 x = true) by (apply Qle_bool_iff; change 0%Q with (inject_Z 0); apply floor_ge; lia).
  rewrite P. replace (Qfloor x <? 2 ^ 64) with false by lia. reflexivity.
Qed.

Example histogram_counts_refuted_case : histogram 53 0 1 10 [inject_Z (10 ^ 19)] = None.
Proof. vm_compute. reflexivity. Qed.

Lemma max_last b l : fold_right Z.max b l = Z.max b (fold_right Z.max 0 l) \/ b < 0.
Proof. induction l as [|y l IH]; cbn [fold_right]; lia. Qed.

Lemma max_in x l : In x l -> x <= fold_right Z.max 0 l.
Proof. induction l as [|y l IH]; intros []; cbn [fold_right]; [subst; lia|]. specialize (IH H). lia. Qed.

Lemma sum_pos l : (forall x, In x l -> x <= 0) -> fold_right Z.add 0 l <= 0.
Proof. induction l as [|y l IH]; intros H; cbn [fold_right]; [lia|]. pose proof (H y (or_introl eq_refl)). assert (fold_right Z.add 0 l <= 0) by (apply IH; intros; apply H; now right). lia. Qed.

Lemma how_many_nonneg p vals : 0 <= how_many p vals.
Proof. unfold how_many. lia. Qed.

Lemma snd_rows from to n vals : map snd (rows from to n vals true) =
  [count_under from vals] ++ map (fun i => count_bin from to n i vals) (seq 0 n) ++ [count_over to vals].
Proof. unfold rows. rewrite !map_app, map_map. reflexivity. Qed.

Lemma most_eq from to n vals scale :
  max_count (Hist from scale (map (fun i => count_bin from to n i vals) (seq 0 n)) (count_under from vals) (count_over to vals)) =
  fold_right Z.max 0 (map snd (rows from to n vals true)).
Proof.
  unfold max_count. cbn [h_bins h_under h_over]. rewrite max_fold, snd_rows, !fold_right_app. cbn [fold_right].
  pose proof (how_many_nonneg (fun v => less v from) vals) as U. fold (count_under from vals) in U.
  pose proof (how_many_nonneg (fun v => Qle_bool to v) vals) as V. fold (count_over to vals) in V.
  set (l := map _ _). pose proof (max_last (Z.max (count_under from vals) (count_over to vals)) l). pose proof (max_last (Z.max (count_over to vals) 0) l). lia.
Qed.

Lemma rows_range from to n vals include :
  Forall (fun '(_, _, k) => 0 <= k <= fold_right Z.max 0 (map snd (rows from to n vals true))) (rows from to n vals include).
Proof.
  apply Forall_forall. intros [[f t] k] H. split.
  - unfold rows in H. rewrite !in_app_iff, in_map_iff in H. destruct H as [H|[(i & [= _ _ <-] & _)|H]]; [| |]; try (destruct include; [destruct H as [[= _ _ <-]|[]]|destruct H]); apply how_many_nonneg.
  - apply max_in. rewrite snd_rows. unfold rows in H. rewrite !in_app_iff, in_map_iff in *. destruct H as [H|[(i & [= _ _ <-] & Hi)|H]].
    + left. destruct include; [destruct H as [[= _ _ <-]|[]]; now left|destruct H].
    + right. left. exists i. now split.
    + right. right. destruct include; [destruct H as [[= _ _ <-]|[]]; now left|destruct H].
Qed.

Lemma most_pos from to n vals : (from < to)%Q -> (0 < n)%nat -> vals <> [] -> 0 < fold_right Z.max 0 (map snd (rows from to n vals true)).
Proof.
  intros Ho Hn Hv. pose proof (total from to n Ho Hn vals) as T. destruct vals as [|v vals]; [congruence|]. cbn [length] in T. rewrite snd_rows.
  destruct (Z.lt_ge_cases 0 (fold_right Z.max 0 ([count_under from (v :: vals)] ++ map (fun i => count_bin from to n i (v :: vals)) (seq 0 n) ++ [count_over to (v :: vals)]))) as [K|K]; [exact K|].
  exfalso. assert (A : forall x, In x ([count_under from (v :: vals)] ++ map (fun i => count_bin from to n i (v :: vals)) (seq 0 n) ++ [count_over to (v :: vals)]) -> x <= 0).
  { intros x Hx. apply max_in in Hx. lia. }
  assert (A1 : count_under from (v :: vals) <= 0) by (apply A; apply in_app_iff; left; now left).
  assert (A2 : count_over to (v :: vals) <= 0) by (apply A; rewrite !in_app_iff; right; right; now left).
  assert (A3 : fold_right Z.add 0 (map (fun i => count_bin from to n i (v :: vals)) (seq 0 n)) <= 0) by (apply sum_pos; intros x Hx; apply A; rewrite !in_app_iff; right; now left).
  lia.
Qed.

Lemma same_length {A B} (R : A -> B -> Prop) l m : Forall2 R l m -> length l = length m.
Proof. induction 1; cbn; congruence. Qed.

Lemma combine_app2 {A B} (l l' : list A) (m m' : list B) : length l = length m -> combine (l ++ l') (m ++ m') = combine l m ++ combine l' m'.
Proof. revert m. induction l as [|x l IH]; intros [|y m] H; try discriminate; cbn; [reflexivity|]. f_equal. apply IH. now injection H. Qed.

Section Table.
  Variable C : Type.
  Variable widen : ascii -> C.
  Variable fmt : bool -> value -> list C.
  Variable fmt_count : Z -> list C.

  (* Texts are not too long, and equal numbers are formatted the same way *)
  Definition formats : Prop :=
    (forall sp v, Z.of_nat (length (fmt sp v)) < 2 ^ 31) /\ (forall k, Z.of_nat (length (fmt_count k)) < 2 ^ 31) /\
    (forall sp q q', (q == q')%Q -> fmt sp (Finite q) = fmt sp (Finite q')).

  Lemma print_eq from to n vals width include : formats -> (from < to)%Q -> (0 < n)%nat ->
    let rs := rows from to n vals include in
    let sp := include || less from 0 in
    let most := fold_right Z.max 0 (map snd (rows from to n vals true)) in
    exists bts st, hist_print C widen fmt fmt_count
        (Hist from (inject_Z (Z.of_nat n) / (to - from)) (map (fun i => count_bin from to n i vals) (seq 0 n)) (count_under from vals) (count_over to vals)) width include =
          format_bins C widen st (fold_left deduct [c_from C st; 4; c_to C st; 3; c_count C st; 3] width) most [] (combine bts (map snd rs)) /\
        Forall2 (fits C fmt fmt_count st sp) bts rs /\ widths C fmt fmt_count st sp (Columns C [] 0 0 0) rs.
  Proof.
    intros (F1 & F2 & F3) Ho Hn rs sp most.
      unfold hist_print. cbn [h_base h_scale h_bins h_under h_over]. rewrite most_eq. fold most.
      assert (S : match (if include then Below else Finite from) with Below => true | Finite q => negb (Qle_bool 0 q) | Above => false end = sp) by (unfold sp, less; destruct include; reflexivity).
      cbv zeta. rewrite S. unfold append_text at 1. cbn [app]. set (st0 := Columns C _ 0 0 0).
      assert (G0 : good C st0 (Range (length (@nil C)) (length (fmt sp (if include then Below else Finite from)))) (fmt sp (if include then Below else Finite from))).
      { apply (good_append C (Columns C [] 0 0 0)). }
      assert (N0 : nonneg C st0) by (unfold nonneg; cbn; lia).
      assert (B0 : fmt sp (Finite from) = fmt sp (Finite (boundary from to n 0))) by (apply F3; symmetry; now apply boundary_0).
      assert (Bn : fmt sp (Finite to) = fmt sp (Finite (boundary from to n n))) by (apply F3; symmetry; now apply boundary_n).
      unfold rs, rows. destruct include.
      - destruct (next_row C fmt fmt_count F1 F2 sp st0 _ Below (Finite from) (count_under from vals) G0) as (bt1 & st1 & E1 & X1 & T1 & G1 & W1).
        rewrite E1. cbn [pbind]. rewrite B0 in G1.
        pose proof (widths_nonneg C fmt fmt_count _ _ _ _ N0 W1) as N1.
        destruct (bins_ok C fmt fmt_count F1 F2 F3 from to n Ho Hn sp (fun i => count_bin from to n i vals) n 0 st1 _ N1 G1) as (bts2 & from2 & st2 & E2 & X2 & T2 & G2 & W2).
        rewrite E2. cbn [pbind]. cbn [Nat.add] in G2. rewrite <- Bn in G2.
        destruct (next_row C fmt fmt_count F1 F2 sp st2 _ (Finite to) Above (count_over to vals) G2) as (bt3 & st3 & E3 & X3 & T3 & G3 & W3).
        rewrite E3. cbn [pbind]. exists ([bt1] ++ bts2 ++ [bt3]), st3. split; [|split].
        + f_equal. cbn [map snd app combine]. f_equal. rewrite map_app, map_map. cbn [map snd].
          assert (L : length bts2 = length (map (fun i => count_bin from to n i vals) (seq 0 n))).
          { apply same_length in T2. rewrite T2. unfold bin_rows. now rewrite !map_length. }
          rewrite combine_app2 by exact L. reflexivity.
        + apply Forall2_app; [|apply Forall2_app].
          * apply (fits_extends C fmt fmt_count st1); [now apply extends_trans with st2|]. constructor; [exact T1|constructor].
          * apply (fits_extends C fmt fmt_count st2); [exact X3|exact T2].
          * constructor; [exact T3|constructor].
        + apply (widths_app C fmt fmt_count st0 st1 st3); [exact W1|]. apply (widths_app C fmt fmt_count st1 st2 st3); assumption.
      - cbn [pbind]. rewrite B0 in G0 at 2.
        destruct (bins_ok C fmt fmt_count F1 F2 F3 from to n Ho Hn sp (fun i => count_bin from to n i vals) n 0 st0 _ N0 G0) as (bts2 & from2 & st2 & E2 & X2 & T2 & G2 & W2).
        rewrite E2. cbn [pbind]. exists bts2, st2. rewrite !app_nil_r. cbn [app]. rewrite map_map. cbn [snd]. split; [reflexivity|]. split; [exact T2|exact W2].
  Qed.

  (* C193: the histogram is printed as one line per bin, with aligned columns, and with bars whose lengths are proportional to the counts, rounded to the
     nearest integer.  Signs are shown when the first bound is negative. *)
  Theorem histogram_table_partial digits from to n vals width include :
    formats -> (from < to)%Q -> (0 < n)%nat -> 24 <= digits <= 64 -> Z.of_nat n <= 2 ^ 60 -> Z.of_nat (length vals) < 2 ^ 63 ->
    Forall (in_reach from to n) vals -> vals <> [] -> - 2 ^ 31 <= width < 2 ^ 31 ->
    let rs := rows from to n vals include in
    let sp := include || less from 0 in
    let a := widest (map (fun '(f, _, _) => fmt sp f) rs) in
    let b := widest (map (fun '(_, t, _) => fmt sp t) rs) in
    let c := widest (map (fun '(_, _, k) => fmt_count k) rs) in
    let d := Z.to_nat (width - Z.of_nat (a + b + c + 10)) in
    let most := fold_right Z.max 0 (map snd (rows from to n vals true)) in
    exists h (bar : Z -> nat),
      histogram digits from to n vals = Some h /\ 0 < most /\
      (forall f t k, In (f, t, k) rs -> (bar k <= d)%nat /\ Z.abs (2 * Z.of_nat (bar k) * most - 2 * k * Z.of_nat d) <= most) /\
      hist_print C widen fmt fmt_count h width include =
        Printed (concat (map (fun '(f, t, k) =>
          line widen a b c d (fmt sp f) (fmt sp t) (fmt_count k) (repeat (widen "#"%char) (bar k)) ++ [widen "010"%char]) rs)).
  Proof.
    intros (F1 & F2 & F3) Ho Hn Hd Hl Hv Hr He Hw rs sp a b c d most. pose proof (most_pos from to n vals Ho Hn He) as HM. fold most in HM.
    eexists. exists (bar (Z.of_nat d) most). split; [now apply histogram_eq|]. split; [exact HM|].
    pose proof (rows_range from to n vals include) as RR. fold most rs in RR.
    assert (Hd2 : Z.of_nat d < 2 ^ 31) by lia. split.
    { intros f t k Hk. rewrite Forall_forall in RR. specialize (RR _ Hk). cbn in RR.
      destruct (bar_ok (Z.of_nat d) most k HM RR ltac:(lia)) as (r & E & A & B). unfold bar. rewrite E. split; [lia|]. rewrite Z2Nat.id by lia. exact B. }
    destruct (print_eq from to n vals width include (conj F1 (conj F2 F3)) Ho Hn) as (bts & st & E & T & (W1 & W2 & W3)). rewrite E. cbn [c_from c_to c_count] in W1, W2, W3. rewrite Z.max_r in W1, W2, W3 by lia.
    fold rs sp in T, W1, W2, W3 |- *. fold most.
    fold a in W1. fold b in W2. fold c in W3. rewrite W1, W2, W3, deduct_all by lia.
    replace (Z.max 0 (width - (Z.of_nat a + Z.of_nat b + Z.of_nat c + 10))) with (Z.of_nat d) by (unfold d; lia).
    apply (format_ok C widen fmt fmt_count st sp a b c d most rs bts 0 T W1 W2 W3 Hd2 HM RR).
  Qed.

  (* C193: all lines have the same size, which is the specified width, or the least possible size if that is more *)
  Theorem histogram_line_size digits from to n vals width include :
    formats -> (from < to)%Q -> (0 < n)%nat -> 24 <= digits <= 64 -> Z.of_nat n <= 2 ^ 60 -> Z.of_nat (length vals) < 2 ^ 63 ->
    Forall (in_reach from to n) vals -> vals <> [] -> - 2 ^ 31 <= width < 2 ^ 31 ->
    let rs := rows from to n vals include in
    let sp := include || less from 0 in
    let needed := (widest (map (fun '(f, _, _) => fmt sp f) rs) + widest (map (fun '(_, t, _) => fmt sp t) rs) +
                   widest (map (fun '(_, _, k) => fmt_count k) rs) + 10)%nat in
    exists h lines,
      histogram digits from to n vals = Some h /\
      hist_print C widen fmt fmt_count h width include = Printed (concat (map (fun l => l ++ [widen "010"%char]) lines)) /\
      length lines = (if include then n + 2 else n)%nat /\
      Forall (fun l => Z.of_nat (length l) = Z.max width (Z.of_nat needed)) lines.
  Proof.
    intros Hf Ho Hn Hd Hl Hv Hr He Hw rs sp needed.
    destruct (histogram_table_partial digits from to n vals width include Hf Ho Hn Hd Hl Hv Hr He Hw) as (h & bar & E1 & _ & Hb & E2).
    fold rs sp in Hb, E2. unfold needed.
    assert (W : forall (g : row -> list C) r, In r rs -> (length (g r) <= widest (map g rs))%nat).
    { intros g r Hi. unfold widest. clear - Hi. induction rs as [|x l IH]; [destruct Hi|]. cbn [map]. rewrite list_max_cons. destruct Hi as [->|Hi]; [lia|]. specialize (IH Hi). lia. }
    pose proof (W (fun '(f, _, _) => fmt sp f)) as Wa. pose proof (W (fun '(_, t, _) => fmt sp t)) as Wb. pose proof (W (fun '(_, _, k) => fmt_count k)) as Wc. clear W.
    set (a := widest (map (fun '(f, _, _) => fmt sp f) rs)) in *. set (b := widest (map (fun '(_, t, _) => fmt sp t) rs)) in *. set (c := widest (map (fun '(_, _, k) => fmt_count k) rs)) in *.
    set (d := Z.to_nat (width - Z.of_nat (a + b + c + 10))) in *.
    exists h, (map (fun '(f, t, k) => line widen a b c d (fmt sp f) (fmt sp t) (fmt_count k) (repeat (widen "#"%char) (bar k))) rs).
    split; [exact E1|]. split; [|split].
    - rewrite E2, map_map. do 2 f_equal. apply map_ext. now intros [[f t] k].
    - rewrite map_length. unfold rs, rows. destruct include; rewrite !app_length, map_length, seq_length; cbn [length]; lia.
    - apply Forall_forall. intros l Hl2. apply in_map_iff in Hl2. destruct Hl2 as ([[f t] k] & <- & Hi). specialize (Wa _ Hi). specialize (Wb _ Hi). specialize (Wc _ Hi). cbn beta iota in Wa, Wb, Wc. change (length (fmt sp f) <= a)%nat in Wa. change (length (fmt sp t) <= b)%nat in Wb. change (length (fmt_count k) <= c)%nat in Wc.
      destruct (Hb f t k Hi) as [Hbar _]. unfold line, spaces. rewrite !app_length, !repeat_length, !map_length. cbn [list_ascii_of_string length]. lia.
  Qed.
End Table.

(* C193, full statement: also for a histogram without values.  Refuted: the length of a bar is then computed by division by zero. *)
Theorem histogram_table_refuted C widen fmt fmt_count digits from to n width include : @formats C fmt fmt_count -> (from < to)%Q -> (0 < n)%nat ->
  exists h, histogram digits from to n [] = Some h /\ hist_print C widen fmt fmt_count h width include = Undefined.
Proof.
  intros HF Ho Hn. unfold histogram, hist_make. replace (n =? 0)%nat with false by (symmetry; apply Nat.eqb_neq; lia).
  replace (Qeq_bool to from) with false by (destruct (Qeq_bool to from) eqn:E; [apply Qeq_bool_iff in E; lra|reflexivity]). cbn [orb obind hist_run].
  eexists. split; [reflexivity|]. destruct (print_eq C widen fmt fmt_count from to n [] width include HF Ho Hn) as (bts & st & E & T & _).
  assert (B : map (fun i => count_bin from to n i []) (seq 0 n) = repeat 0 n).
  { clear. unfold count_bin, how_many. cbn [filter length]. generalize 0%nat at 2. induction n as [|n IH]; intros s; cbn [seq map repeat]; [reflexivity|]. now rewrite IH. }
  assert (M : fold_right Z.max 0 (map snd (rows from to n [] true)) = 0).
  { rewrite snd_rows, B. unfold count_under, count_over, how_many. cbn [filter length]. rewrite !fold_right_app. cbn [fold_right]. clear. induction n; cbn in *; lia. }
  rewrite B, M in E. change (count_under from []) with 0 in E. change (count_over to []) with 0 in E. rewrite E.
  assert (NE : rows from to n [] include <> []).
  { unfold rows. destruct n as [|m]; [lia|]. cbn [seq map]. destruct include; discriminate. }
  destruct (rows from to n [] include) as [|r rs]; [congruence|]. inversion T; subst. reflexivity.
Qed.

Section Case.
  Local Open Scope string_scope.
  (* Positive and negative integers of one digit *)
  Let digit (z : Z) : ascii := ascii_of_nat (48 + Z.to_nat (Z.abs z)).
  Let fmt (sp : bool) (v : value) : list ascii :=
    match v with
    | Below => list_ascii_of_string "-inf"
    | Above => list_ascii_of_string "+inf"
    | Finite q => (if Qle_bool 0 q then (if sp then ["+"%char] else []) else ["-"%char]) ++ [digit (Qfloor q)]
    end.
  Let fmt_count (n : Z) : list ascii := [digit n].

  Example histogram_table_case :
    option_map (fun h => match hist_print ascii (fun c => c) fmt fmt_count h 29 true with Printed l => string_of_list_ascii l | _ => "" end)
      (histogram 53 (-1) 2 3 [0; 1 # 2; -2; 2; 199 # 100; -1; 1; 7; 0]%Q) =
    Some ("-inf -> -1   : 1 |###       |
-1   -> +0   : 1 |###       |
+0   -> +1   : 3 |##########|
+1   -> +2   : 2 |#######   |
+2   -> +inf : 2 |#######   |
").
  Proof. vm_compute. reflexivity. Qed.

  Example histogram_line_size_case :
    option_map (fun h => match hist_print ascii (fun c => c) fmt fmt_count h 5 false with Printed l => string_of_list_ascii l | _ => "" end)
      (histogram 53 0 2 2 [0; 1]%Q) =
    Some ("0 -> 1 : 1 ||
1 -> 2 : 1 ||
").
  Proof. vm_compute. reflexivity. Qed.

  Example formats_case : formats ascii fmt fmt_count.
  Proof.
    split; [|split].
    - intros sp [|q|]; cbn; try reflexivity. destruct (Qle_bool 0 q), sp; reflexivity.
    - intros k. reflexivity.
    - intros sp q q' E. cbn. rewrite (Qfloor_comp _ _ E). replace (Qle_bool 0 q') with (Qle_bool 0 q); [reflexivity|]. apply eq_true_iff_eq. rewrite !Qle_bool_iff. now rewrite E.
  Qed.

  Example histogram_table_refuted_case : option_map (fun h => hist_print ascii (fun c => c) fmt fmt_count h 80 false) (histogram 53 0 1 2 []) = Some Undefined.
  Proof. vm_compute. reflexivity. Qed.
End Case.

Print Assumptions histogram_counts_partial.
Print Assumptions histogram_counts_refuted.
Print Assumptions histogram_table_partial.
Print Assumptions histogram_line_size.
Print Assumptions histogram_table_refuted.
