(* C215: every line of a message gets the prefix *)
From Coq Require Import ZArith Bool List Lia.
From Verif Require Import LogTextModel LogTextSpec ArrLib.
Import ListNotations.

Lemma find_from_skip : forall nl a b pos i, (i + length a = pos)%nat ->
  find_from nl (a ++ b) pos i = find_from nl b pos (i + length a).
Proof.
  intros nl a b. induction a as [|c a IH]; intros pos i H; cbn [app find_from length] in *.
  - rewrite Nat.add_0_r. reflexivity.
  - destruct (Nat.leb_spec pos i); [lia|]. cbn [andb]. rewrite IH by lia. f_equal. lia.
Qed.

Lemma find_from_line : forall nl line b pos i, ~ In nl line -> (pos <= i)%nat ->
  find_from nl (line ++ b) pos i = find_from nl b pos (i + length line).
Proof.
  intros nl line b pos. induction line as [|c line IH]; intros i N H; cbn [app find_from length].
  - rewrite Nat.add_0_r. reflexivity.
  - destruct (Z.eqb_spec c nl) as [->|_]; [exfalso; apply N; left; reflexivity|]. rewrite andb_false_r.
    rewrite IH; [f_equal; lia| |lia]. intros I. apply N. right. exact I.
Qed.

Lemma find_line : forall nl a line b, ~ In nl line ->
  find nl (a ++ line ++ nl :: b) (length a) = Some (length a + length line)%nat /\
  find nl (a ++ line) (length a) = None.
Proof.
  intros nl a line b N. unfold find. split.
  - rewrite find_from_skip, find_from_line by (auto; lia). cbn [find_from]. rewrite Z.eqb_refl.
    destruct (Nat.leb_spec (length a) (0 + length a + length line)); [|lia]. cbn [andb]. f_equal.
  - rewrite find_from_skip by lia. rewrite <- (app_nil_r line), find_from_line by (auto; lia). reflexivity.
Qed.

Lemma assemble_right : forall nl prefix lines a line line' buffer fuel, Forall (fun l => ~ In nl l) (line :: line' :: lines) ->
  (length lines < fuel)%nat ->
  assemble nl fuel prefix (a ++ join nl line (line' :: lines)) (length a) (length a + length line) buffer =
  Some (buffer ++ prefixed nl prefix (line :: line' :: lines)).
Proof.
  intros nl prefix. induction lines as [|line'' lines IH]; intros a line line' buffer fuel F H;
    (destruct fuel as [|fuel]; [lia|]); cbn [assemble].
  - cbn [join]. apply Forall_inv_tail, Forall_inv in F.
    assert (E : a ++ line ++ nl :: line' = (a ++ line ++ [nl]) ++ line') by (rewrite <- !app_assoc; reflexivity).
    assert (L : length (a ++ line ++ [nl]) = S (length a + length line)) by (rewrite !app_length; cbn [length]; lia).
    rewrite E, <- L. rewrite (proj2 (find_line nl (a ++ line ++ [nl]) line' [] F)).
    assert (X1 : skipn (length (a ++ line ++ [nl])) ((a ++ line ++ [nl]) ++ line') = line').
    { rewrite skipn_app, skipn_all, Nat.sub_diag. reflexivity. }
    assert (X2 : substr ((a ++ line ++ [nl]) ++ line') (length a) (length (a ++ line ++ [nl]) - length a) = line ++ [nl]).
    { unfold substr. rewrite <- app_assoc, skipn_app, skipn_all, Nat.sub_diag. cbn [skipn app].
      rewrite (app_length a), Nat.add_comm, Nat.add_sub. rewrite firstn_app, firstn_all, Nat.sub_diag. cbn [firstn].
      apply app_nil_r. }
    rewrite X1, X2. f_equal. unfold prefixed. cbn [map concat]. rewrite <- !app_assoc, app_nil_r. reflexivity.
  - pose proof (Forall_inv (Forall_inv_tail F)) as N.
    change (join nl line (line' :: line'' :: lines)) with (line ++ nl :: join nl line' (line'' :: lines)).
    set (rest := join nl line' (line'' :: lines)).
    assert (E : a ++ line ++ nl :: rest = (a ++ line ++ [nl]) ++ rest) by (rewrite <- !app_assoc; reflexivity).
    assert (L : length (a ++ line ++ [nl]) = S (length a + length line)) by (rewrite !app_length; cbn [length]; lia).
    rewrite E, <- L.
    assert (FL : find nl ((a ++ line ++ [nl]) ++ rest) (length (a ++ line ++ [nl])) =
      Some (length (a ++ line ++ [nl]) + length line')%nat) by exact (proj1 (find_line nl (a ++ line ++ [nl]) line' _ N)).
    rewrite FL.
    assert (X2 : substr ((a ++ line ++ [nl]) ++ rest) (length a) (length (a ++ line ++ [nl]) - length a) = line ++ [nl]).
    { unfold substr. rewrite <- app_assoc, skipn_app, skipn_all, Nat.sub_diag. cbn [skipn app].
      rewrite (app_length a), Nat.add_comm, Nat.add_sub. rewrite firstn_app, firstn_all, Nat.sub_diag. cbn [firstn].
      apply app_nil_r. }
    rewrite X2. unfold rest. rewrite IH; [|exact (Forall_inv_tail F)|cbn [length] in H; lia].
    f_equal. unfold prefixed. cbn [map concat]. rewrite <- !app_assoc. reflexivity.
Qed.

Lemma join_length : forall nl lines line, (length lines <= length (join nl line lines))%nat.
Proof.
  intros nl. induction lines as [|l lines IH]; intros line; cbn [join length]; [lia|].
  rewrite app_length. cbn [length]. specialize (IH l). lia.
Qed.

(* C215.  Every message is a sequence of lines, and each one is written with the prefix, and with a newline after it. *)
Theorem log_lines : forall newline prefix message,
  exists line lines, message = join newline line lines /\ Forall (fun l => ~ In newline l) (line :: lines) /\
    sink_log newline prefix message = Some (prefixed newline prefix (line :: lines)).
Proof.
  intros nl prefix message.
  assert (J : exists line lines, message = join nl line lines /\ Forall (fun l => ~ In nl l) (line :: lines)).
  { induction message as [|c message IH]; [exists [], []; split; [reflexivity|repeat constructor; intros []]|].
    destruct IH as (line & lines & -> & F). destruct (Z.eq_dec c nl) as [->|N].
    - exists [], (line :: lines). split; [reflexivity|]. constructor; [intros []|exact F].
    - exists (c :: line), lines. split; [destruct lines; reflexivity|].
      constructor; [|exact (Forall_inv_tail F)]. intros [I|I]; [exact (N I)|exact (Forall_inv F I)]. }
  destruct J as (line & lines & -> & F). exists line, lines. split; [reflexivity|]. split; [exact F|].
  unfold sink_log. destruct lines as [|line' lines].
  - cbn [join]. pose proof (proj2 (find_line nl [] line [] (Forall_inv F))) as E. cbn [app length] in E. rewrite E.
    unfold prefixed. cbn [map concat]. rewrite app_nil_r. reflexivity.
  - pose proof (proj1 (find_line nl [] line (join nl line' lines) (Forall_inv F))) as E. cbn [app length] in E.
    cbn [join]. rewrite E.
    apply (assemble_right nl prefix lines [] line line' [] _ F).
    rewrite app_length. cbn [length]. pose proof (join_length nl lines line'). lia.
Qed.

(* the decomposition into lines is the only one *)
Theorem log_lines_unique : forall newline line lines line' lines',
  Forall (fun l => ~ In newline l) (line :: lines) -> Forall (fun l => ~ In newline l) (line' :: lines') ->
  join newline line lines = join newline line' lines' -> line = line' /\ lines = lines'.
Proof.
  intros nl. assert (A : forall a b x y : list Z, ~ In nl a -> ~ In nl b -> a ++ nl :: x = b ++ nl :: y -> a = b /\ x = y).
  { induction a as [|c a IH]; intros [|d b] x y Na Nb E; cbn in E.
    - injection E as E. auto.
    - injection E as E1 E2. exfalso. apply Nb. left. congruence.
    - injection E as E1 E2. exfalso. apply Na. left. congruence.
    - injection E as E1 E2. subst d. destruct (IH b x y) as [-> ->]; [intros I; apply Na; right; exact I|intros I; apply Nb; right; exact I|exact E2|].
      auto. }
  assert (B : forall (a b x : list Z), ~ In nl a -> a = b ++ nl :: x -> False).
  { intros a b x N ->. apply N. apply in_or_app. right. left. reflexivity. }
  intros line lines. revert line.
  induction lines as [|l lines IH]; intros line line' [|l' lines'] F F' E; cbn [join] in E.
  - auto.
  - destruct (B _ _ _ (Forall_inv F) E).
  - symmetry in E. destruct (B _ _ _ (Forall_inv F') E).
  - destruct (A _ _ _ _ (Forall_inv F) (Forall_inv F') E) as [-> E2].
    destruct (IH _ _ _ (Forall_inv_tail F) (Forall_inv_tail F') E2) as [-> ->]. auto.
Qed.

Example log_lines_case : sink_log 10 [62; 32]%Z [97; 10; 10; 98; 99; 10]%Z =
    Some [62; 32; 97; 10; 62; 32; 10; 62; 32; 98; 99; 10; 62; 32; 10]%Z /\
  [97; 10; 10; 98; 99; 10]%Z = join 10 [97]%Z [[]; [98; 99]; []]%Z /\
  sink_log 10 [62; 32]%Z [97; 98]%Z = Some [62; 32; 97; 98; 10]%Z.
Proof. vm_compute. repeat split; reflexivity. Qed.

Print Assumptions log_lines.
Print Assumptions log_lines_unique.
