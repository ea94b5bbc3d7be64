From Coq Require Import ZArith QArith Qround Qfield Lia Lqa List Bool.
From Verif Require Import PerlinModel PerlinSpec ArrLib.
Import ListNotations.
Local Open Scope Z_scope.

(* Displacement of the index by a combination of shifts *)
Fixpoint shifted (shifts : list Z) (bits : list bool) : Z :=
  match shifts, bits with
  | k :: shifts, b :: bits => (if b : bool then k else 0) + shifted shifts bits
  | _, _ => 0
  end.

Lemma shifted_at (l : list bool) : forall shifts k b s, nth_error shifts (length l) = Some k ->
  shifted shifts (l ++ b :: s) = shifted shifts (l ++ false :: s) + (if b then k else 0).
Proof.
  induction l as [|x l IH]; intros [|y shifts] k b s H; try discriminate; cbn [length nth_error] in H; cbn [app shifted].
  - injection H as ->. destruct b; lia.
  - rewrite (IH shifts k b s H). lia.
Qed.

Section Loop.
  Variable i : interp.
  Variable gradients : list (list Q).
  Variable vec : list Q.
  Variable shifts : list Z.
  Variable index : Z.
  Variable F : list bool -> Q.
  Notation n := (length vec).
  Hypothesis len : length shifts = n.
  Hypothesis corner_ok : forall bits, length bits = n ->
    0 <= index + shifted shifts bits < 2 ^ 64 /\ at_corner gradients vec (index + shifted shifts bits) bits = Some (F bits).

  (* Value for the first k dimensions, when the corner is fixed in the others *)
  Fixpoint nested (k : nat) (s : list bool) : Q :=
    match k with
    | O => F s
    | S k => interpolate i (nested k (false :: s)) (nested k (true :: s)) (nth k vec 0%Q)
    end.

  Fixpoint steps (k : nat) : nat := match k with O => O | S k => steps k + (S (steps k) + 1) end.

  Lemma loop_ok k : forall s stack, (k + length s = n)%nat -> length stack = n ->
    exists stack', length stack' = n /\ (forall j, (k <= j)%nat -> nth_error stack' j = nth_error stack j) /\
      forall fuel, leave i gradients vec shifts (steps k + fuel) (index + shifted shifts (repeat false k ++ s)) (repeat false k ++ s) 0 (F (repeat false k ++ s)) stack =
                   leave i gradients vec shifts fuel (index + shifted shifts (repeat false k ++ s)) (repeat false k ++ s) k (nested k s) stack'.
  Proof.
    induction k as [|k IH]; intros s stack Hk Hs.
    - exists stack. split; [exact Hs|]. split; [reflexivity|]. intros fuel. reflexivity.
    - destruct (IH (false :: s) stack ltac:(cbn; lia) Hs) as (st1 & L1 & A1 & E1).
      destruct (set_nth st1 k (Some (nested k (false :: s)))) as [st2|] eqn:ES; [|rewrite set_nth_some in ES by lia; discriminate].
      pose proof (set_nth_length _ _ _ _ ES) as L2.
      destruct (IH (true :: s) st2 ltac:(cbn; lia) ltac:(lia)) as (st3 & L3 & A3 & E3).
      exists st3. split; [exact L3|]. split.
      { intros j Hj. rewrite A3 by lia. rewrite (nth_error_set_nth _ _ _ _ j ES). destruct (Nat.eqb_spec j k); [lia|]. apply A1. lia. }
      intros fuel. assert (R : repeat false (S k) ++ s = repeat false k ++ false :: s).
      { rewrite <- (repeat_cons k false) at 1 || idtac. cbn [repeat]. rewrite repeat_cons. now rewrite <- app_assoc. }
      rewrite R. cbn [steps]. rewrite <- Nat.add_assoc. rewrite E1. cbn [Nat.add leave].
      assert (Lk : length (repeat false k) = k) by apply repeat_length.
      replace (k <? n)%nat with true by (symmetry; apply Nat.ltb_lt; lia).
      assert (N1 : forall b, nth_error (repeat false k ++ b :: s) k = Some b) by (intros b; rewrite nth_error_app2, Lk, Nat.sub_diag by lia; reflexivity).
      rewrite N1. cbn [obind]. destruct (nth_error shifts k) as [sh|] eqn:Esh; [|apply nth_error_None in Esh; lia]. cbn [obind negb]. rewrite ES. cbn [obind].
      assert (S1 : forall b x, set_nth (repeat false k ++ b :: s) k x = Some (repeat false k ++ x :: s)) by (intros b x; rewrite <- Lk at 2; apply set_nth_app).
      rewrite S1. cbn [obind].
      assert (LL : forall b, length (repeat false k ++ b :: s) = n) by (intros b; rewrite app_length; cbn [length]; lia).
      assert (SA : shifted shifts (repeat false k ++ true :: s) = shifted shifts (repeat false k ++ false :: s) + sh) by (apply (shifted_at _ _ sh true); now rewrite Lk).
      destruct (corner_ok _ (LL true)) as [B1 C1]. destruct (corner_ok _ (LL false)) as [B0 C0].
      replace (u64 (index + shifted shifts (repeat false k ++ false :: s) + sh)) with (index + shifted shifts (repeat false k ++ true :: s))
        by (unfold u64; rewrite Z.mod_small by lia; lia).
      rewrite C1. cbn [obind]. rewrite <- Nat.add_assoc. rewrite E3. cbn [Nat.add leave]. replace (k <? n)%nat with true by (symmetry; apply Nat.ltb_lt; lia).
      rewrite N1. cbn [obind]. rewrite Esh. cbn [obind negb]. rewrite S1. cbn [obind].
      rewrite A3 by lia. rewrite (nth_error_set_nth _ _ _ _ k ES), Nat.eqb_refl. cbn [obind].
      destruct (nth_error vec k) as [t|] eqn:Et; [|apply nth_error_None in Et; lia]. cbn [obind].
      replace (u64 (index + shifted shifts (repeat false k ++ true :: s) - sh)) with (index + shifted shifts (repeat false k ++ false :: s))
        by (unfold u64; rewrite Z.mod_small by lia; lia).
      cbn [nested]. rewrite (nth_error_nth _ _ 0%Q Et). reflexivity.
  Qed.

  Lemma steps_bound k : (steps k + 2 <= 2 ^ (k + 1))%nat.
  Proof. induction k as [|k IH]; cbn [steps Nat.add Nat.pow] in *; lia. Qed.

  Lemma leave_ok : leave i gradients vec shifts (2 ^ (n + 2)) (index + shifted shifts (repeat false n)) (repeat false n) 0 (F (repeat false n)) (repeat None n) = Some (nested n []).
  Proof.
    destruct (loop_ok n [] (repeat None n) ltac:(cbn; lia) ltac:(apply repeat_length)) as (st & _ & _ & E). rewrite app_nil_r in E.
    assert (exists f, (2 ^ (n + 2) = steps n + S f)%nat) as [f ->].
    { exists (2 ^ (n + 2) - steps n - 1)%nat. pose proof (steps_bound n). replace (n + 2)%nat with (S (n + 1)) by lia. cbn [Nat.pow]. lia. }
    rewrite E. cbn [leave]. rewrite Nat.ltb_irrefl. reflexivity.
  Qed.
End Loop.

(* The choice of grid module *)
Definition splits (axes : list axis) (pos : list Q) : list (Q * Z) := map (fun '(a, p) => split_coord a p) (combine axes pos).
Definition fracs axes pos := map fst (splits axes pos).
Definition cells axes pos := map snd (splits axes pos).

Definition vertices (sizes : list Z) : Z := fold_right Z.mul 1 (map (fun s => s + 1) sizes).

Lemma vertices_pos sizes : Forall (fun s => 1 <= s) sizes -> 1 <= vertices sizes.
Proof. induction 1 as [|s l H _ IH]; unfold vertices in *; cbn [map fold_right]; [lia|]. nia. Qed.

Lemma num_gradients_ok sizes : forall n total, 1 <= n < 2 ^ 64 -> num_gradients_from n sizes = Some total ->
  Forall (fun s => 1 <= s) sizes /\ total = n * vertices sizes /\ total < 2 ^ 64.
Proof.
  induction sizes as [|s l IH]; intros n total Hn H; cbn [num_gradients_from] in H.
  - injection H as <-. unfold vertices. cbn. split; [constructor|]. lia.
  - destruct (Z.ltb_spec s 1); [discriminate|]. destruct (Z.leb_spec (2 ^ 64) (s + 1)); [discriminate|]. destruct (Z.leb_spec (2 ^ 64) (n * (s + 1))); [discriminate|].
    destruct (IH (n * (s + 1)) total ltac:(nia) H) as (A & B & C). split; [constructor; [lia|assumption]|]. split; [|assumption].
    unfold vertices in *. cbn [map fold_right]. rewrite B. ring.
Qed.

Lemma split_cell a p : 1 <= a_size a -> 0 <= snd (split_coord a p) < a_size a.
Proof.
  intros H. unfold split_coord. set (x := ((p - a_pos a) * a_inv a)%Q). destruct (Qle_bool 0 x) eqn:E1; [|cbn; lia].
  destruct (Qle_bool (inject_Z (a_size a)) x) eqn:E2; cbn [negb snd]; [lia|]. apply Qle_bool_iff in E1. split.
  - change 0%Q with (inject_Z 0) in E1. apply Qfloor_resp_le in E1. now rewrite Qfloor_Z in E1.
  - assert (L : (x < inject_Z (a_size a))%Q) by (apply Qnot_le_lt; intros K; apply Qle_bool_iff in K; congruence).
    pose proof (Qfloor_le x). rewrite Zlt_Qlt. lra.
Qed.

Lemma split_frac a p : (0 <= fst (split_coord a p) <= 1)%Q.
Proof.
  unfold split_coord. set (x := ((p - a_pos a) * a_inv a)%Q). destruct (Qle_bool 0 x); [|cbn [fst]; lra].
  destruct (Qle_bool (inject_Z (a_size a)) x); cbn [negb fst]; [lra|]. pose proof (Qfloor_le x). pose proof (Qlt_floor x) as H2. rewrite inject_Z_plus in H2. change (inject_Z 1) with 1%Q in H2. lra.
Qed.

Lemma vertex_cons z cell b bits : vertex (z :: cell) (b :: bits) = (if b : bool then z + 1 else z) :: vertex cell bits.
Proof. reflexivity. Qed.

Lemma place_range sizes : forall v, length v = length sizes -> Forall2 (fun s c => 0 <= c <= s) sizes v -> 0 <= place sizes v < vertices sizes.
Proof.
  induction sizes as [|s l IH]; intros v L H; inversion H as [|? c ? v' Hc H']; subst; unfold vertices in *; cbn [place map fold_right] in *; [lia|].
  specialize (IH v' ltac:(cbn in L; lia) H'). nia.
Qed.

Lemma locate_ok axes : forall pos index mult, length pos = length axes -> Forall (fun a => 1 <= a_size a) axes -> 0 <= index < mult ->
  mult * vertices (map a_size axes) < 2 ^ 64 ->
  exists shifts, locate axes pos index mult = Some (fracs axes pos, shifts, index + mult * place (map a_size axes) (cells axes pos)) /\ length shifts = length axes /\
    forall bits, length bits = length axes ->
      index + mult * place (map a_size axes) (cells axes pos) + shifted shifts bits = index + mult * place (map a_size axes) (vertex (cells axes pos) bits).
Proof.
  induction axes as [|a axes IH]; intros [|p pos] index mult L HS Hi Hm; try discriminate; cbn [locate].
  - exists []. split; [f_equal; f_equal; cbn; lia|]. split; [reflexivity|]. intros [|b bits] Lb; [|discriminate]. cbn. lia.
  - inversion HS as [|? ? Ha HS']; subst. pose proof (split_cell a p Ha) as Hc. unfold fracs, cells, splits in *. cbn [combine map]. destruct (split_coord a p) as [t c] eqn:E. cbn [fst snd] in *.
    replace ((0 <=? c) && (c <? a_size a)) with true by (symmetry; apply andb_true_iff; lia).
    pose proof (vertices_pos (map a_size axes)) as Hv. assert (Hv' : 1 <= vertices (map a_size axes)) by (apply Hv; apply Forall_map; exact HS'). clear Hv.
    unfold vertices in Hm. cbn [map fold_right] in Hm. fold (vertices (map a_size axes)) in Hm.
    assert (B0 : 0 < mult * (a_size a + 1)) by nia.
    assert (B1 : mult * (a_size a + 1) <= mult * (a_size a + 1) * vertices (map a_size axes)) by (set (X := mult * (a_size a + 1)) in *; clear - B0 Hv'; nia).
    rewrite Z.mul_assoc in Hm. assert (B3 : mult * (a_size a + 1) < 2 ^ 64) by lia. assert (B4 : a_size a + 1 < 2 ^ 64) by (clear - B3 Hi Ha; nia).
    assert (B5 : 0 <= mult * c) by (clear - Hi Hc; nia).
    assert (B2 : mult * c <= mult * (a_size a - 1)) by (apply Z.mul_le_mono_nonneg_l; lia).
    replace (u64 (a_size a + 1)) with (a_size a + 1) by (unfold u64; rewrite Z.mod_small; lia).
    replace (u64 (mult * (a_size a + 1))) with (mult * (a_size a + 1)) by (unfold u64; rewrite Z.mod_small; lia).
    replace (u64 (mult * c)) with (mult * c) by (unfold u64; rewrite Z.mod_small; lia).
    replace (u64 (index + mult * c)) with (index + mult * c) by (unfold u64; rewrite Z.mod_small; lia).
    destruct (IH pos (index + mult * c) (mult * (a_size a + 1)) ltac:(cbn in L; lia) HS' ltac:(lia) ltac:(lia)) as (shifts & E1 & L1 & E2).
    rewrite E1. cbn [obind]. exists (mult :: shifts). split; [f_equal; f_equal; cbn [place]; ring|]. split; [cbn; lia|].
    intros [|b bits] Lb; [discriminate|]. rewrite vertex_cons. cbn [shifted place map]. specialize (E2 bits ltac:(cbn in Lb; lia)). destruct b; lia.
Qed.

Lemma cells_range axes : forall pos, length pos = length axes -> Forall (fun a => 1 <= a_size a) axes ->
  forall bits, length bits = length axes -> Forall2 (fun s c => 0 <= c <= s) (map a_size axes) (vertex (cells axes pos) bits).
Proof.
  induction axes as [|a axes IH]; intros [|p pos] L HS [|b bits] Lb; try discriminate; [constructor|]. inversion HS as [|? ? Ha HS']; subst.
  unfold cells, splits in *. cbn [combine map]. rewrite vertex_cons. pose proof (split_cell a p Ha). constructor; [destruct b; lia|]. apply IH; [now injection L|assumption|now injection Lb].
Qed.
